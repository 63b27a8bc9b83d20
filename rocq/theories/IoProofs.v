(** Proofs about the reader and writer adaptors. *)
From Coq Require Import Bool List Arith Lia.
From Verif Require Import Prelude ListFacts QueueModel QueueSpec QueueProofs Traits Contracts ContractFacts AdaptorSpec
  BufferedSpec IoModel IoSpec.
Import ListNotations.
Set Implicit Arguments.

(** ** Reading one byte *)
Section ReadOne.
  Context {S T : Type} (Rd : reader S T) (x0 : T).

  Lemma read_one_item : forall s s' b, r_read Rd [x0] s = Ret (s', ([b], Ok 1)) ->
    read_one Rd x0 s = Ret (s', Ok (inl b)).
  Proof. intros s s' b H. unfold read_one, read_exact. cbn. rewrite H. reflexivity. Qed.

  Lemma read_one_eof : forall s s', r_read Rd [x0] s = Ret (s', ([x0], Ok 0)) ->
    read_one Rd x0 s = Ret (s', Ok (inr tt)).
  Proof. intros s s' H. unfold read_one, read_exact. cbn. rewrite H. reflexivity. Qed.

  Lemma read_one_err : forall s s' buf e, r_read Rd [x0] s = Ret (s', (buf, Err e)) ->
    read_one Rd x0 s = Ret (s', if is_unexpected_eof e then Ok (inr tt) else Err e).
  Proof. intros s s' buf e H. unfold read_one, read_exact. cbn. rewrite H. cbn. now destruct (is_unexpected_eof e). Qed.

  Lemma read_some_ok : forall s s' buf buf' n, r_read Rd buf s = Ret (s', (buf', Ok n)) -> 1 <= n ->
    read_some Rd buf s = Ret (s', (buf', Ok (inl n))).
  Proof. intros s s' buf buf' n H Hn. unfold read_some. rewrite H. cbn. destruct n; [lia|reflexivity]. Qed.

  Lemma read_some_eof : forall s s' buf buf', r_read Rd buf s = Ret (s', (buf', Ok 0)) ->
    read_some Rd buf s = Ret (s', (buf', Ok (inr tt))).
  Proof. intros s s' buf buf' H. unfold read_some. rewrite H. reflexivity. Qed.

  Lemma read_some_err : forall s s' buf buf' e, r_read Rd buf s = Ret (s', (buf', Err e)) ->
    read_some Rd buf s = Ret (s', (buf', Err e)).
  Proof. intros s s' buf buf' e H. unfold read_some. rewrite H. reflexivity. Qed.
End ReadOne.

Lemma not_eof : forall e, kind e <> UnexpectedEof -> is_unexpected_eof e = false.
Proof. intros [[| |n] p] H; cbn in *; congruence. Qed.

(** ** BufReaderToBulkProducer *)
Section BufReader.
  Context {S T : Type} (Rd : buf_reader S T) (x0 : T) (R : S -> list T -> res unit io_error -> nat -> Prop).
  Hypothesis L : lawful_buf_reader Rd R.

  Definition br_R (s : S) (bs : list T) (l : res unit io_error) (k : nat) : Prop := R s bs l k /\ clean_end l.
  Definition any_state {X : Type} (_ : X) : Prop := True.

  Lemma br_lawful : lawful_producer (buf_reader_producer Rd x0) br_R any_state.
  Proof.
    constructor; [constructor|].
    - intros s xs l k [H _]. exact (lb_wf L H).
    - intros s xs l k [H C]. split; auto. apply (lb_weaken L 0 H). lia.
    - intros s x xs l k [H C].
      destruct (lb_read L [x0] H) as (s' & n & E & Hn & _ & H'); try discriminate. cbn in Hn.
      assert (n = 1) by lia. subst n. cbn in E, H'. exists s'. split; [now apply read_one_item|]. split; auto.
    - intros s l k [H C]. destruct l as [[]|e].
      + destruct (lb_read_eof L [x0] H) as (s' & E); [discriminate|]. exists s'. split; [now apply read_one_eof|exact Logic.I].
      + destruct (lb_read_err L [x0] H) as (s' & E); [discriminate|]. exists s'. split; [|exact Logic.I].
        cbn. rewrite (read_one_err _ _ _ E). now rewrite not_eof.
    - intros s xs l k [H C] Hx. cbn. unfold br_expose_items.
      destruct (lb_fill_buf L H Hx) as (s1 & ys1 & rest1 & E1 & N1 & _ & _ & H1). rewrite E1. cbn.
      destruct ys1 as [|y1 ys1]; [congruence|].
      destruct (lb_fill_buf L H1 Hx) as (s2 & ys2 & rest2 & E2 & N2 & X2 & _ & H2). rewrite E2. cbn.
      exists s2, ys2, rest2. splits; auto. split; auto.
    - intros s l k [H C]. cbn. unfold br_expose_items. destruct l as [[]|e].
      + destruct (lb_fill_buf_eof L H) as (s' & E & _). rewrite E. cbn. exists s'. split; [reflexivity|exact Logic.I].
      + destruct (lb_fill_buf_err L H) as (s' & E). rewrite E. cbn. exists s'. split; [reflexivity|exact Logic.I].
    - intros s xs l k n [H C] Hk Hn. cbn. unfold br_consider_produced.
      destruct (lb_consume L n H Hn) as (s' & E & H'). rewrite E. cbn. exists s'. split; [reflexivity|]. split; auto.
    - intros s xs l k buf [H C] Hb. cbn. destruct xs as [|x xs].
      + destruct l as [[]|e].
        * destruct (lb_read_eof L buf H Hb) as (s' & E). exists s'. split; [now apply read_some_eof|exact Logic.I].
        * destruct (lb_read_err L buf H Hb) as (s' & E). exists s'. split; [now apply read_some_err|exact Logic.I].
      + destruct (lb_read L buf H) as (s' & n & E & Hn & Hn' & H'); auto; [discriminate|].
        exists s', n. splits; auto; try lia.
        * apply read_some_ok; auto. lia.
        * split; auto. apply (lb_weaken L 0 H'). lia.
  Qed.

  Lemma br_slurp_lawful : lawful_slurp (buf_reader_producer Rd x0) br_R any_state.
  Proof.
    intros s xs l k [H C]. cbn. unfold br_slurp. destruct xs as [|x xs].
    - pose proof (lb_wf L H) as Hk. cbn in Hk. assert (k = 0) by lia. subst k. destruct l as [[]|e].
      + destruct (lb_fill_buf_eof L H) as (s' & E & H'). rewrite E. cbn. left. exists s'. split; [reflexivity|]. split; auto.
      + destruct (lb_fill_buf_err L H) as (s' & E). rewrite E. cbn. right. exists s', e. splits; auto. exact Logic.I.
    - destruct (lb_fill_buf L H) as (s1 & ys1 & rest1 & E1 & N1 & _ & K1 & H1); [discriminate|]. rewrite E1. cbn.
      left. exists s1. split; [reflexivity|]. split; auto. exact (lb_weaken L k H1 K1).
  Qed.
End BufReader.

(** ** ReaderToBulkProducer *)
Section Reader.
  Context {S Q T : Type} (Rd : reader S T) (I : queue Q T) (x0 : T) (c : nat).
  Context (R : S -> list T -> res unit io_error -> Prop) (RQ : Q -> list T -> nat -> list T -> Prop).
  Hypothesis L : lawful_reader Rd R.
  Hypothesis LQ : lawful_queue I c RQ.
  Hypothesis Hc : 1 <= c.

  Definition rd_R (st : reader_state S Q) (xs : list T) (l : res unit io_error) (k : nat) : Prop :=
    exists items bs, xs = items ++ bs /\ RQ (rs_queue st) items 0 [] /\ R (rs_reader st) bs l /\
      k <= length items /\ clean_end l.

  Lemma q_is_empty_nil : forall q k w, RQ q [] k w -> q_is_empty I q = true.
  Proof. intros q k w H. unfold q_is_empty. now rewrite (lq_len LQ H). Qed.

  Lemma q_is_empty_cons : forall q x items k w, RQ q (x :: items) k w -> q_is_empty I q = false.
  Proof. intros q x items k w H. unfold q_is_empty. now rewrite (lq_len LQ H). Qed.

  Lemma rd_lawful : lawful_producer (reader_producer Rd I x0) rd_R any_state.
  Proof.
    constructor; [constructor|].
    - intros [s q] xs l k (items & bs & -> & _ & _ & Hk & _). rewrite app_length. lia.
    - intros [s q] xs l k (items & bs & -> & A & B & _ & C). exists items, bs. splits; auto. lia.
    - intros [s q] x xs l k (items & bs & Hx & A & B & Hk & C). cbn in A, B. cbn. unfold rd_produce. cbn.
      destruct items as [|y items]; cbn in Hx.
      + subst bs. rewrite (lq_dequeue_empty LQ A). cbn.
        destruct (lr_read L [x0] B) as (s' & n & E & Hn & _ & H'); try discriminate. cbn in Hn.
        assert (n = 1) by lia. subst n. cbn in E, H'. rewrite (read_one_item _ _ _ E). cbn.
        eexists. split; [reflexivity|]. exists [], xs. cbn. splits; auto. cbn in Hk. lia.
      + injection Hx as <- ->. destruct (lq_dequeue LQ A) as (q' & E & A'). rewrite E. cbn.
        eexists. split; [reflexivity|]. exists items, bs. cbn in *. splits; auto. lia.
    - intros [s q] l k (items & bs & Hx & A & B & Hk & C). cbn in A, B. cbn. unfold rd_produce. cbn.
      symmetry in Hx. apply app_eq_nil in Hx. destruct Hx as [-> ->]. rewrite (lq_dequeue_empty LQ A). cbn.
      destruct l as [[]|e].
      + destruct (lr_read_eof L [x0] B) as (s' & E); [discriminate|]. rewrite (read_one_eof _ _ E). cbn.
        eexists. split; [reflexivity|exact Logic.I].
      + destruct (lr_read_err L [x0] B) as (s' & E); [discriminate|]. rewrite (read_one_err _ _ _ E), not_eof by exact C. cbn.
        eexists. split; [reflexivity|exact Logic.I].
    - intros [s q] xs l k (items & bs & -> & A & B & Hk & C) Hn. cbn in A, B. cbn. unfold rd_expose_items. cbn.
      destruct items as [|y items].
      + rewrite (q_is_empty_nil A). destruct (lq_expose_slots LQ A) as (q1 & n & E1 & N1 & N2 & A1); [cbn; lia|].
        rewrite E1. cbn. cbn in Hn.
        destruct (lr_read L (repeat x0 n) B) as (s' & m & E & Hm & Hm' & B'); auto; [destruct n; [lia|discriminate]|].
        rewrite repeat_length in Hm. rewrite E. cbn. destruct m as [|m]; [lia|]. cbn [Nat.eqb].
        assert (Hf : firstn (Datatypes.S m) (firstn (Datatypes.S m) bs ++ skipn (Datatypes.S m) (repeat x0 n)) = firstn (Datatypes.S m) bs).
        { rewrite firstn_app, firstn_firstn, Nat.min_id, firstn_length, Nat.min_l by lia.
          rewrite Nat.sub_diag, firstn_O, app_nil_r. reflexivity. }
        rewrite Hf.
        assert (A2 : RQ (q_write I (firstn (Datatypes.S m) bs) q1) [] n (overlay (firstn (Datatypes.S m) bs) [])).
        { apply (lq_write LQ _ A1). rewrite firstn_length. lia. }
        rewrite overlay_nil in A2.
        destruct (lq_consider_enqueued LQ (Datatypes.S m) A2) as (q3 & E3 & A3); [rewrite firstn_length; lia|].
        rewrite E3. cbn [bind]. cbn [app] in A3. rewrite firstn_firstn, Nat.min_id in A3.
        destruct (lq_expose_items LQ A3) as (q4 & ys & rest & E4 & N4 & X4 & A4).
        { apply firstn_nonempty; auto. lia. }
        rewrite E4. cbn [bind expect]. eexists. exists ys, (rest ++ skipn (Datatypes.S m) bs). split; [reflexivity|].
        splits; auto.
        * cbn. rewrite app_assoc, <- X4. symmetry. apply firstn_skipn.
        * cbn [app]. exists (firstn (Datatypes.S m) bs), (skipn (Datatypes.S m) bs). cbn [rs_reader rs_queue].
          splits; auto.
          -- symmetry. apply firstn_skipn.
          -- exact (lq_forget LQ A4).
          -- rewrite X4, app_length. lia.
      + rewrite (q_is_empty_cons A).
        destruct (lq_expose_items LQ A) as (q4 & ys & rest & E4 & N4 & X4 & A4); [discriminate|].
        rewrite E4. cbn [bind expect]. eexists. exists ys, (rest ++ bs). split; [reflexivity|]. splits; auto.
        * rewrite X4. now rewrite app_assoc.
        * exists (y :: items), bs. cbn [rs_reader rs_queue]. splits; auto. rewrite X4, app_length. lia.
    - intros [s q] l k (items & bs & Hx & A & B & Hk & C). cbn in A, B. cbn. unfold rd_expose_items. cbn.
      symmetry in Hx. apply app_eq_nil in Hx. destruct Hx as [-> ->]. rewrite (q_is_empty_nil A).
      destruct (lq_expose_slots LQ A) as (q1 & n & E1 & N1 & N2 & A1); [cbn; lia|]. rewrite E1. cbn.
      assert (Hr : repeat x0 n <> []) by (destruct n; [lia|discriminate]).
      destruct l as [[]|e].
      + destruct (lr_read_eof L (repeat x0 n) B Hr) as (s' & E). rewrite E. cbn. eexists. split; [reflexivity|exact Logic.I].
      + destruct (lr_read_err L (repeat x0 n) B Hr) as (s' & E). rewrite E. cbn. eexists. split; [reflexivity|exact Logic.I].
    - intros [s q] xs l k n (items & bs & -> & A & B & Hk & C) Hk1 Hn. cbn in A, B. cbn. unfold rd_consider_produced. cbn.
      destruct (lq_consider_dequeued LQ n A) as (q' & E & A'); [lia|]. rewrite E. cbn. eexists. split; [reflexivity|].
      exists (skipn n items), bs. cbn. splits; auto.
      + rewrite skipn_app. replace (n - length items) with 0 by lia. reflexivity.
      + rewrite skipn_length. lia.
    - intros [s q] xs l k buf (items & bs & -> & A & B & Hk & C) Hb. cbn in A, B. cbn. unfold rd_bulk_produce. cbn.
      destruct items as [|y items]; cbn [app].
      + rewrite (q_is_empty_nil A). destruct bs as [|b bs].
        * destruct l as [[]|e].
          -- destruct (lr_read_eof L buf B Hb) as (s' & E). rewrite (read_some_eof _ _ _ E). cbn. eexists. split; [reflexivity|exact Logic.I].
          -- destruct (lr_read_err L buf B Hb) as (s' & E). rewrite (read_some_err _ _ _ E). cbn. eexists. split; [reflexivity|exact Logic.I].
        * destruct (lr_read L buf B) as (s' & n & E & Hn & Hn' & B'); auto; [discriminate|].
          rewrite (read_some_ok _ _ _ E) by lia. cbn [bind]. eexists. exists n. split; [reflexivity|]. splits; auto; try lia.
          exists [], (skipn n (b :: bs)). cbn [rs_reader rs_queue app length]. splits; auto.
      + rewrite (q_is_empty_cons A).
        destruct (lawful_bulk_dequeue LQ buf A) as (q' & n & E & H1 & H2 & H3 & A').
        rewrite E. cbn [bind].
        assert (Hn0 : 1 <= n). { destruct n; [|lia]. destruct H3 as [H3 _]. destruct (H3 eq_refl); congruence. }
        assert (Hf : firstn n (y :: items ++ bs) = firstn n (y :: items)).
        { change (y :: items ++ bs) with ((y :: items) ++ bs). rewrite firstn_app.
          replace (n - length (y :: items)) with 0 by lia. cbn [firstn]. now rewrite app_nil_r. }
        eexists. exists n. rewrite Hf. split; [reflexivity|]. splits; auto; try lia.
        * cbn [length] in *. rewrite app_length. lia.
        * exists (skipn n (y :: items)), bs. cbn [rs_reader rs_queue]. splits; auto; try lia.
          change (y :: items ++ bs) with ((y :: items) ++ bs). rewrite skipn_app.
          replace (n - length (y :: items)) with 0 by lia. reflexivity.
  Qed.

  Lemma rd_slurp_lawful : lawful_slurp (reader_producer Rd I x0) rd_R any_state.
  Proof. intros st xs l k H. left. exists st. split; [reflexivity|exact H]. Qed.
End Reader.

(** ** WriterToBulkConsumer *)
Lemma received_app : forall T (l1 l2 : list (wcall T)), received (l1 ++ l2) = received l1 ++ received l2.
Proof. intros. apply flat_map_app. Qed.

(** The calls made, of which exactly the last failed; the accepted bytes begin [bs]. *)
Definition failed_calls {T} (calls : list (wcall T)) (e : io_error) (bs : list T) : Prop :=
  (exists pre c, calls = pre ++ [c] /\ Forall good_write pre /\ failed_call c e) /\
  (exists rest, received calls ++ rest = bs).

Definition good_calls {T} (calls : list (wcall T)) (bs : list T) : Prop :=
  Forall good_write calls /\ received calls = bs.

Lemma good_calls_nil : forall T, @good_calls T [] [].
Proof. intros T. split; [constructor|reflexivity]. Qed.

Lemma good_calls_app : forall T (c1 c2 : list (wcall T)) b1 b2,
  good_calls c1 b1 -> good_calls c2 b2 -> good_calls (c1 ++ c2) (b1 ++ b2).
Proof.
  intros T c1 c2 b1 b2 [G1 R1] [G2 R2]. split; [now apply Forall_app|]. rewrite received_app. congruence.
Qed.

Lemma failed_calls_app : forall T (c1 c2 : list (wcall T)) e b1 b2,
  good_calls c1 b1 -> failed_calls c2 e b2 -> failed_calls (c1 ++ c2) e (b1 ++ b2).
Proof.
  intros T c1 c2 e b1 b2 [G1 R1] [(pre & c & -> & G2 & F) (rest & <-)]. split.
  - exists (c1 ++ pre), c. rewrite app_assoc. splits; auto. now apply Forall_app.
  - exists rest. rewrite received_app, R1. now rewrite app_assoc.
Qed.

Lemma failed_calls_more : forall T (calls : list (wcall T)) e b1 b2,
  failed_calls calls e b1 -> failed_calls calls e (b1 ++ b2).
Proof.
  intros T calls e b1 b2 [H (rest & <-)]. split; auto. exists (rest ++ b2). now rewrite app_assoc.
Qed.

Lemma failed_calls_one : forall T (c : wcall T) e, failed_call c e -> received [c] = [] -> failed_calls [c] e [].
Proof.
  intros T c e H R. split; [exists [], c; auto|]. exists []. now rewrite R.
Qed.

Section Writer.
  Context {S Q T : Type} (W : writer S T) (I : queue Q T) (c : nat).
  Context (RQ : Q -> list T -> nat -> list T -> Prop).
  Hypothesis LW : lawful_writer W.
  Hypothesis LQ : lawful_queue I c RQ.
  Hypothesis Hc : 1 <= c.

  Lemma logged_write : forall buf s log, exists s' r,
    w_write (logged W) buf (s, log) = Ret ((s', log ++ [WWrite buf r]), r) /\
    match r with Ok n => n <= length buf | Err _ => True end.
  Proof.
    intros buf s log. destruct (lw_write LW s buf) as (s' & r & E & H). exists s', r. split; auto. cbn. now rewrite E.
  Qed.

  Lemma write_all_loop_ok : forall fuel buf s log, length buf <= fuel ->
    exists s' calls r, write_all_loop (logged W) fuel buf (s, log) = Ret ((s', log ++ calls), r) /\
    match r with Ok _ => good_calls calls buf | Err e => failed_calls calls e buf end.
  Proof.
    induction fuel as [|fuel IH]; intros buf s log Hf.
    { destruct buf; [|cbn in Hf; lia]. exists s, [], (Ok tt). rewrite app_nil_r. split; [reflexivity|apply good_calls_nil]. }
    destruct buf as [|b buf].
    { exists s, [], (Ok tt). rewrite app_nil_r. split; [reflexivity|apply good_calls_nil]. }
    remember (b :: buf) as bs eqn:Eb. cbn [write_all_loop].
    assert (Hm : match bs with [] => False | _ => True end) by now subst.
    destruct bs as [|b' bs']; [contradiction|]. clear Hm. injection Eb as -> ->.
    destruct (logged_write (b :: buf) s log) as (s1 & r & E & Hr). rewrite E. cbn [bind].
    destruct r as [n|e].
    - rewrite slice_from_ok by exact Hr. cbn [bind]. destruct n as [|n]; cbn [Nat.eqb].
      + exists s1, [WWrite (b :: buf) (Ok 0)]. eexists. split; [reflexivity|].
        apply (failed_calls_more (b1 := []) (b :: buf)). apply failed_calls_one; cbn; auto.
      + cbn [skipn]. cbn [length] in Hf, Hr.
        destruct (IH (skipn n buf) s1 (log ++ [WWrite (b :: buf) (Ok (Datatypes.S n))])) as (s2 & calls & r & E2 & H2).
        { rewrite skipn_length. lia. }
        rewrite E2. exists s2, (WWrite (b :: buf) (Ok (Datatypes.S n)) :: calls), r.
        rewrite <- app_assoc. split; [reflexivity|].
        assert (G : good_calls [WWrite (b :: buf) (Ok (Datatypes.S n))] (firstn (Datatypes.S n) (b :: buf))).
        { split; [|cbn; now rewrite app_nil_r]. constructor; [cbn; lia|constructor]. }
        change (skipn n buf) with (skipn (Datatypes.S n) (b :: buf)) in H2.
        pose proof (firstn_skipn (Datatypes.S n) (b :: buf)) as FS.
        destruct r as [[]|e]; [pose proof (good_calls_app G H2) as HX|pose proof (failed_calls_app G H2) as HX];
          rewrite FS in HX; exact HX.
    - exists s1, [WWrite (b :: buf) (Err e)], (Err e). split; [reflexivity|].
      apply (failed_calls_more (b1 := []) (b :: buf)). apply failed_calls_one; cbn; auto.
  Qed.

  Lemma write_all_ok : forall buf s log,
    exists s' calls r, write_all (logged W) buf (s, log) = Ret ((s', log ++ calls), r) /\
    match r with Ok _ => good_calls calls buf | Err e => failed_calls calls e buf end.
  Proof. intros. apply write_all_loop_ok. lia. Qed.

  Lemma flush_internal_ok : forall fuel items q k w s log, RQ q items k w -> length items < fuel ->
    exists s' q' calls r,
      flush_internal_buffer (logged W) I fuel (mk_writer_state (s, log) q) = Ret (mk_writer_state (s', log ++ calls) q', r) /\
      match r with
      | Ok _ => good_calls calls items /\ RQ q' [] k w
      | Err e => failed_calls calls e items
      end.
  Proof.
    induction fuel as [|fuel IH]; intros items q k w s log HR Hf; [lia|].
    cbn [flush_internal_buffer ws_queue ws_writer]. destruct items as [|x items].
    - rewrite (lq_expose_items_empty LQ HR). cbn [bind]. exists s, q, [], (Ok tt). rewrite app_nil_r.
      split; [reflexivity|]. split; [apply good_calls_nil|exact HR].
    - destruct (lq_expose_items LQ HR) as (q1 & ys & rest & E1 & N1 & X1 & H1); [discriminate|].
      rewrite E1. cbn [bind]. destruct (write_all_ok ys s log) as (s2 & calls & r & E2 & H2). rewrite E2. cbn [bind].
      rewrite X1 in *. destruct r as [[]|e].
      + destruct (lq_consider_dequeued LQ (length ys) H1) as (q3 & E3 & H3); [rewrite app_length; lia|].
        rewrite E3. cbn [bind]. rewrite skipn_app, skipn_all, Nat.sub_diag in H3. cbn [app skipn] in H3.
        assert (1 <= length ys) by (destruct ys; [congruence|cbn; lia]). rewrite app_length in Hf.
        destruct (IH rest q3 k w s2 (log ++ calls) H3) as (s4 & q4 & calls' & r & E4 & H4); [lia|].
        rewrite E4. exists s4, q4, (calls ++ calls'), r. rewrite app_assoc. split; [reflexivity|].
        destruct r as [[]|e].
        * destruct H4 as [G4 R4]. split; [now apply good_calls_app|exact R4].
        * now apply failed_calls_app.
      + exists s2, q1, calls, (Err e). split; [reflexivity|]. now apply failed_calls_more.
  Qed.

  Context (fuel : nat).
  Hypothesis Hfuel : c < fuel.

  Definition wr_rel (st : writer_state (S * list (wcall T)) Q) (log : list (wcall T)) (b : wabs T) : Prop :=
    snd (ws_writer st) = log /\
    match b with WActive queued k w => RQ (ws_queue st) queued k w | WEnded => True end.

  Lemma flushed_ok : forall X (k0 : writer_state (S * list (wcall T)) Q -> outcome (_ * res X io_error)) items q k w s log,
    RQ q items k w ->
    (exists s' q' calls e, flushed (logged W) I fuel (mk_writer_state (s, log) q) k0 =
        Ret (mk_writer_state (s', log ++ calls) q', Err e) /\ failed_calls calls e items) \/
    (exists s' q' calls, flushed (logged W) I fuel (mk_writer_state (s, log) q) k0 =
        k0 (mk_writer_state (s', log ++ calls) q') /\ good_calls calls items /\ RQ q' [] k w).
  Proof.
    intros X k0 items q k w s log HR. unfold flushed.
    destruct (@flush_internal_ok fuel items q k w s log HR) as (s' & q' & calls & r & E & H).
    { pose proof (lq_wf LQ HR). lia. }
    rewrite E. cbn [bind]. destruct r as [[]|e].
    - right. destruct H as [G R]. exists s', q', calls. auto.
    - left. exists s', q', calls, e. auto.
  Qed.

  Lemma wr_step : forall (o : cop T unit) st log b, wr_rel st log b -> wa_permitted b o ->
    exists st' r calls b', c_do (writer_consumer (logged W) I fuel) o st = Ret (st', r) /\
      wa_answer c b o r calls b' /\ wr_rel st' (log ++ calls) b'.
  Proof.
    intros o [[s log0] q] log b [Hl HR] Hp. cbn in Hl. subst log0.
    destruct b as [queued k w|]; [|contradiction]. cbn [ws_queue] in HR.
    assert (HE : forall st' (r : cans io_error) calls e,
      c_do (writer_consumer (logged W) I fuel) o (mk_writer_state (s, log) q) = Ret (st', r) ->
      c_error r = Some e ->
      failed_calls calls e (queued ++ direct o) -> snd (ws_writer st') = log ++ calls ->
      exists st' r calls b', c_do (writer_consumer (logged W) I fuel) o (mk_writer_state (s, log) q) = Ret (st', r) /\
        wa_answer c (WActive queued k w) o r calls b' /\ wr_rel st' (log ++ calls) b').
    { intros st' r calls e Hd He [F1 F2] Hs. exists st', r, calls, WEnded. split; [exact Hd|].
      unfold wa_answer. rewrite He. splits; auto. split; auto. }
    destruct o as [x|f| | |ys|n|buf]; cbn [c_do c_consume c_close c_flush c_expose c_write c_consume_slots c_bulk_consume
      writer_consumer c_consumer c_buffered] in *.
    - (* consume *)
      unfold wr_consume in *.
      match goal with |- context [flushed _ _ _ _ ?f] => destruct (@flushed_ok _ f _ _ _ _ s log HR)
        as [(s' & q' & calls & e & E & F)|(s' & q' & calls & E & G & R')] end; rewrite E in *.
      + cbn [bind] in *. eapply HE; try reflexivity. now apply failed_calls_more.
      + cbn [ws_writer ws_queue bind] in *. destruct (write_all_ok [x] s' (log ++ calls)) as (s2 & calls2 & r & E2 & H2).
        rewrite E2 in *. cbn [bind] in *. rewrite <- app_assoc in *. destruct r as [[]|e].
        * do 4 eexists. split; [reflexivity|]. split; [|split; [reflexivity|]].
          -- cbn. destruct (good_calls_app G H2) as [GG RR]. splits; eauto.
          -- cbn. exact (lq_forget LQ R').
        * eapply HE; try reflexivity. now apply failed_calls_app.
    - (* close *)
      unfold wr_close in *.
      match goal with |- context [flushed _ _ _ _ ?f] => destruct (@flushed_ok _ f _ _ _ _ s log HR)
        as [(s' & q' & calls & e & E & F)|(s' & q' & calls & E & G & R')] end; rewrite E in *.
      + cbn [bind] in *. eapply HE; try reflexivity. now apply failed_calls_more.
      + cbn [ws_writer ws_queue bind logged w_close] in *. destruct (lw_close LW s') as (s2 & r & E2).
        rewrite E2 in *. cbn [bind] in *. rewrite <- app_assoc in *. destruct r as [[]|e].
        * do 4 eexists. split; [reflexivity|]. split; [|split; [reflexivity|]].
          -- cbn. destruct G. eexists. splits; eauto.
          -- exact Logic.I.
        * eapply HE; try reflexivity. apply failed_calls_app; auto. apply failed_calls_one; reflexivity.
    - (* flush *)
      unfold wr_flush in *.
      match goal with |- context [flushed _ _ _ _ ?f] => destruct (@flushed_ok _ f _ _ _ _ s log HR)
        as [(s' & q' & calls & e & E & F)|(s' & q' & calls & E & G & R')] end; rewrite E in *.
      + cbn [bind] in *. eapply HE; try reflexivity. now apply failed_calls_more.
      + cbn [ws_writer ws_queue bind logged w_flush] in *. destruct (lw_flush LW s') as (s2 & r & E2).
        rewrite E2 in *. cbn [bind] in *. rewrite <- app_assoc in *. destruct r as [[]|e].
        * do 4 eexists. split; [reflexivity|]. split; [|split; [reflexivity|]].
          -- cbn. destruct G. eexists. splits; eauto.
          -- exact R'.
        * eapply HE; try reflexivity. apply failed_calls_app; auto. apply failed_calls_one; reflexivity.
    - (* expose_slots *)
      unfold wr_expose_slots in *.
      match goal with |- context [flushed _ _ _ _ ?f] => destruct (@flushed_ok _ f _ _ _ _ s log HR)
        as [(s' & q' & calls & e & E & F)|(s' & q' & calls & E & G & R')] end; rewrite E in *.
      + cbn [bind] in *. eapply HE; try reflexivity. now apply failed_calls_more.
      + cbn [ws_writer ws_queue bind] in *.
        destruct (lq_expose_slots LQ R') as (q2 & n & E2 & N1 & N2 & R2); [cbn; lia|]. rewrite E2. cbn [bind expect].
        do 4 eexists. split; [reflexivity|]. split; [|split; [reflexivity|]].
        * cbn. destruct G. cbn in N2. splits; eauto.
        * exact R2.
    - (* write *)
      cbn in Hp. exists (wr_write I ys (mk_writer_state (s, log) q)), CANone, [], (WActive queued k (overlay ys w)).
      split; [reflexivity|]. split; [cbn; auto|]. split; [cbn; now rewrite app_nil_r|].
      cbn. exact (lq_write LQ ys HR Hp).
    - (* consume_slots *)
      destruct Hp as [Hk Hn]. unfold wr_consume_slots. cbn [ws_queue ws_writer].
      destruct (lq_consider_enqueued LQ n HR Hn) as (q2 & E2 & R2). rewrite E2. cbn [bind].
      do 4 eexists. split; [reflexivity|]. split; [|split].
      + cbn. splits; eauto. pose proof (lq_wf LQ R2) as H. rewrite app_length, firstn_length in H. lia.
      + cbn. now rewrite app_nil_r.
      + exact R2.
    - (* bulk_consume *)
      cbn in Hp. unfold wr_bulk_consume in *.
      match goal with |- context [flushed _ _ _ _ ?f] => destruct (@flushed_ok _ f _ _ _ _ s log HR)
        as [(s' & q' & calls & e & E & F)|(s' & q' & calls & E & G & R')] end; rewrite E in *.
      + cbn [bind] in *. eapply HE; try reflexivity. now apply failed_calls_more.
      + cbn [ws_writer ws_queue bind] in *. destruct (logged_write buf s' (log ++ calls)) as (s2 & r & E2 & Hr).
        rewrite E2 in *. cbn [bind] in *. rewrite <- app_assoc in *. destruct r as [[|n]|e]; cbn [Nat.eqb] in *.
        * eapply HE; try reflexivity. apply failed_calls_app; auto. apply (failed_calls_more (b1 := []) buf).
          apply failed_calls_one; cbn; auto.
        * do 4 eexists. split; [reflexivity|]. split; [|split; [reflexivity|]].
          -- assert (G2 : good_calls [WWrite buf (Ok (Datatypes.S n))] (firstn (Datatypes.S n) buf)).
             { split; [|unfold received; cbn [flat_map]; now rewrite app_nil_r]. constructor; [cbn; lia|constructor]. }
             cbn. destruct (good_calls_app G G2) as [GG RR]. splits; eauto. lia.
          -- cbn. exact (lq_forget LQ R').
        * eapply HE; try reflexivity. apply failed_calls_app; auto. apply (failed_calls_more (b1 := []) buf).
          apply failed_calls_one; cbn; auto.
  Qed.

  Lemma wr_total : forall (ops : list (cop T unit)) st log b, wr_rel st log b ->
    exists st' h calls b', c_trace (writer_consumer (logged W) I fuel) st h st' /\ wa_run c b h calls b' /\
      wr_rel st' (log ++ calls) b' /\
      ((map fst h = ops) \/ (exists o ops1 ops2, ops = ops1 ++ o :: ops2 /\ map fst h = ops1 /\ ~ wa_permitted b' o)).
  Proof.
    induction ops as [|o ops IH]; intros st log b HR.
    { exists st, [], [], b. rewrite app_nil_r. splits; auto; constructor. }
    assert (Hd : wa_permitted b o \/ ~ wa_permitted b o).
    { destruct b as [q k w|]; [|right; auto]. destruct o as [x|f| | |ys|n|buf]; cbn; auto.
      - destruct (le_dec (length ys) k); auto.
      - destruct (le_dec 1 k), (le_dec n (length w)); auto; right; tauto.
      - destruct buf; [right; auto|left; discriminate]. }
    destruct Hd as [Hp|Hp].
    - destruct (wr_step o HR Hp) as (st1 & r & calls & b1 & E1 & A1 & R1).
      destruct (IH st1 (log ++ calls) b1 R1) as (st' & h & calls' & b' & T1 & A' & R' & Hh).
      exists st', ((o, r) :: h), (calls ++ calls'), b'. rewrite app_assoc. splits; auto.
      + econstructor; eauto.
      + econstructor; eauto.
      + destruct Hh as [<-|(o' & ops1 & ops2 & -> & <- & N)]; [left; reflexivity|right].
        exists o', (o :: map fst h), ops2. cbn. auto.
    - exists st, [], [], b. rewrite app_nil_r. splits; auto; [constructor|constructor|].
      right. exists o, [], ops. auto.
  Qed.

  (** Any trace of a rule-respecting caller. *)
  Lemma wr_trace : forall h st st' log queued k w,
    c_trace (writer_consumer (logged W) I fuel) st h st' -> c_client k w h -> wr_rel st log (WActive queued k w) ->
    exists calls b', wa_run c (WActive queued k w) h calls b' /\ wr_rel st' (log ++ calls) b'.
  Proof.
    intros h st st' log queued k w HT. revert log queued k w.
    induction HT as [st|st o st1 r h st' E HT IH]; intros log queued k w HC HR.
    { exists [], (WActive queued k w). rewrite app_nil_r. split; [constructor|exact HR]. }
    cbn [c_client] in HC. destruct HC as [Hp HC].
    assert (Hp' : wa_permitted (WActive queued k w) o) by (destruct o; exact Hp).
    destruct (wr_step o HR Hp') as (st1' & r' & calls & b1 & E' & A & R1).
    rewrite E in E'. injection E' as <- <-.
    assert (HK : exists calls' b', wa_run c b1 h calls' b' /\ wr_rel st' ((log ++ calls) ++ calls') b').
    { destruct (c_ends o r) eqn:Ee.
      - subst h. inversion HT; subst. exists [], b1. rewrite app_nil_r. split; [constructor|exact R1].
      - unfold wa_answer in A.
        destruct o as [x|f| | |ys|n|buf]; destruct r as [[[]|e]|[m|e]|[m|e]|]; cbn in A, Ee, HC; try discriminate; try contradiction;
          repeat match goal with H : _ /\ _ |- _ => destruct H | H : exists _, _ |- _ => destruct H end; subst b1; try (eapply IH; eassumption). }
    destruct HK as (calls' & b' & A' & R'). exists (calls ++ calls'), b'. rewrite app_assoc. split; auto.
    econstructor; eauto.
  Qed.
End Writer.

(** *** Consequences of the specification *)
Section Run.
  Context {T : Type} (cap : nat).

  Definition wa_queued (b : wabs T) : list T := match b with WActive q _ _ => q | WEnded => [] end.
  Definition wa_written (b : wabs T) : list T := match b with WActive _ _ w => w | WEnded => [] end.

  Lemma wa_run_ended : forall (h : list (cop T unit * cans io_error)) calls b',
    wa_run cap WEnded h calls b' -> h = [] /\ calls = [] /\ b' = WEnded.
  Proof. intros h calls b' H. inversion H; subst; auto. contradiction. Qed.

  (** As long as no error is reported, what was received and what is queued is what was consumed. *)
  Lemma wa_run_conserves : forall (h : list (cop T unit * cans io_error)) calls q k w b',
    wa_run cap (WActive q k w) h calls b' -> Forall (fun p => c_error (snd p) = None) h ->
    received calls ++ wa_queued b' = q ++ c_consumed w h.
  Proof.
    induction h as [|[o r] h IH]; intros calls q k w b' HA HF.
    { inversion HA; subst. cbn. now rewrite app_nil_r. }
    inversion HA as [|? ? ? calls1 b1 ? calls2 ? Hp A HA']; subst. clear HA.
    inversion HF as [|? ? Hn HF']; subst. cbn in Hn. unfold wa_answer in A. rewrite Hn in A.
    rewrite received_app, <- app_assoc.
    destruct o as [x|f| | |ys|n|buf]; destruct r as [[[]|e]|[m|e]|[m|e]|]; cbn in A; try contradiction; try discriminate.
    - destruct A as (G & -> & ->). rewrite (IH _ _ _ _ _ HA' HF'). cbn. now rewrite <- app_assoc.
    - destruct A as (ws & -> & G & R & ->). apply wa_run_ended in HA'. destruct HA' as (-> & -> & ->). cbn.
      rewrite received_app, R. cbn. now rewrite !app_nil_r.
    - destruct A as (ws & -> & G & R & ->). rewrite (IH _ _ _ _ _ HA' HF'). cbn.
      rewrite received_app, R. cbn. now rewrite app_nil_r.
    - destruct A as (G & R & Hm & ->). rewrite (IH _ _ _ _ _ HA' HF'), R. reflexivity.
    - destruct A as (-> & ->). rewrite (IH _ _ _ _ _ HA' HF'). reflexivity.
    - destruct A as (-> & _ & ->). rewrite (IH _ _ _ _ _ HA' HF'). cbn. now rewrite <- app_assoc.
    - destruct A as (G & Hm & R & ->). rewrite (IH _ _ _ _ _ HA' HF'), R. cbn. now rewrite <- app_assoc.
  Qed.

  Lemma wa_run_snoc : forall (h : list (cop T unit * cans io_error)) o r calls b b',
    wa_run cap b (h ++ [(o, r)]) calls b' ->
    exists calls1 calls2 b1, calls = calls1 ++ calls2 /\ wa_run cap b h calls1 b1 /\ wa_permitted b1 o /\ wa_answer cap b1 o r calls2 b'.
  Proof.
    induction h as [|p h IH]; intros o r calls b b' H.
    - inversion H as [|? ? ? calls1 b1 ? calls2 ? Hp A HA']; subst. inversion HA'; subst. exists [], calls1, b.
      rewrite app_nil_r. splits; auto. constructor.
    - cbn in H. inversion H as [|? o' r' calls1 b1 ? calls2 ? Hp A HA']; subst.
      destruct (IH _ _ _ _ _ HA') as (c1 & c2 & b2 & -> & A1 & P1 & A2).
      exists (calls1 ++ c1), c2, b2. rewrite app_assoc. splits; auto. econstructor; eauto.
  Qed.

  (** Before the last call of a history nothing has failed. *)
  Lemma wa_run_no_error : forall (h : list (cop T unit * cans io_error)) calls b q k w,
    wa_run cap b h calls (WActive q k w) -> Forall (fun p => c_error (snd p) = None) h.
  Proof.
    induction h as [|[o r] h IH]; intros calls b q k w H; constructor.
    - inversion H as [|? ? ? calls1 b1 ? calls2 ? Hp A HA']; subst. cbn.
      destruct b as [q0 k0 w0|]; [|contradiction]. unfold wa_answer in A. destruct (c_error r); auto.
      destruct A as (_ & _ & ->). apply wa_run_ended in HA'. destruct HA' as (_ & _ & ?). discriminate.
    - inversion H as [|? ? ? calls1 b1 ? calls2 ? Hp A HA']; subst. eapply IH; eauto.
  Qed.
End Run.

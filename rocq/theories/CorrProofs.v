(** Futures that work on different states alike, as long as the environment follows a script.

    The first future works on a state with an end of a connection in it, of type [P], which the environment may change between two
    polls. The second works on a state that contains a script of these changes, and makes them itself before it
    returns [Pending]. *)
From Coq Require Import Bool List Arith Lia.
From Verif Require Import Prelude QueueModel Traits ScramblerModel IoModel AsyncModel AsyncAdaptorModel AsyncIoModel FuzzModel JoinModel.
Import ListNotations.
Set Implicit Arguments.

Record view (P C S1 S2 : Type) : Type := mk_view {
  v_rel : list C -> S1 -> S2 -> Prop;
  v_end : S1 -> P;
  v_set : P -> S1 -> S1
}.

Section Corr.
  Context {P C : Type} (env : C -> P -> P) (G : P -> P -> Prop) (B : P -> Prop).
  Context (Grefl : forall p, G p p) (Gtrans : forall p q r, G p q -> G q r -> G p r).

  Fixpoint corr (n : nat) {S1 S2 X Y} (v : view P C S1 S2) (V : X -> Y -> Prop) (f1 : fut S1 X) (f2 : fut S2 Y) {struct n} : Prop :=
    match n with
    | 0 => True
    | Datatypes.S n => forall sc s1 s2, v_rel v sc s1 s2 ->
        match poll f1 s1 with
        | Ret (s1', Ready x) =>
            G (v_end v s1) (v_end v s1') /\ exists s2' y, poll f2 s2 = Ret (s2', Ready y) /\ V x y /\ v_rel v sc s1' s2'
        | Ret (s1', Pending w k1) =>
            G (v_end v s1) (v_end v s1') /\ B (v_end v s1') /\
            forall c sc', sc = c :: sc' -> exists s2' k2, poll f2 s2 = Ret (s2', Pending w k2) /\
              v_rel v sc' (v_set v (env c (v_end v s1')) s1') s2' /\ corr n v V k1 k2
        | Panic => poll f2 s2 = Panic
        | NoFuel => poll f2 s2 = NoFuel
        end
    end.

  Lemma corr_mono : forall n m S1 S2 X Y (v : view P C S1 S2) (V : X -> Y -> Prop) f1 f2, m <= n -> corr n v V f1 f2 -> corr m v V f1 f2.
  Proof.
    induction n as [|n IH]; intros [|m] S1 S2 X Y v V f1 f2 Hm H; try exact Logic.I; [lia|].
    cbn [corr] in *. intros sc s1 s2 HR. specialize (H sc s1 s2 HR). destruct (poll f1 s1) as [[s1' [x|w k1]]| |]; auto.
    destruct H as (H1 & H2 & H3). split; [exact H1|]. split; [exact H2|]. intros c sc' E.
    destruct (H3 c sc' E) as (s2' & k2 & E2 & HR2 & HC). exists s2', k2. split; [exact E2|]. split; [exact HR2|].
    eapply IH; [|exact HC]. lia.
  Qed.

  Lemma poll_await : forall S X Y (f : fut S X) (k : X -> fut S Y) s,
    poll (await f k) s = match poll f s with
                         | Ret (s', Ready x) => poll (k x) s'
                         | Ret (s', Pending w f') => Ret (s', Pending w (await f' k))
                         | Panic => Panic
                         | NoFuel => NoFuel
                         end.
  Proof. intros S X Y [p] k s. reflexivity. Qed.

  Lemma corr_await : forall n S1 S2 X X' Y Y' (v : view P C S1 S2) (V : X -> X' -> Prop) (V' : Y -> Y' -> Prop) f1 f2 k1 k2,
    corr n v V f1 f2 -> (forall x y, V x y -> corr n v V' (k1 x) (k2 y)) -> corr n v V' (await f1 k1) (await f2 k2).
  Proof.
    induction n as [|n IH]; intros S1 S2 X X' Y Y' v V V' f1 f2 k1 k2 Hf Hk; [exact Logic.I|].
    pose proof Hk as Hk0. cbn [corr] in Hf |- *. intros sc s1 s2 HR. specialize (Hf sc s1 s2 HR). rewrite poll_await.
    destruct (poll f1 s1) as [[s1' [x|w f1']]| |] eqn:E1.
    - destruct Hf as (HG & s2' & y & E2 & HV & HR'). specialize (Hk x y HV). cbn [corr] in Hk. specialize (Hk sc s1' s2' HR').
      rewrite poll_await, E2. destruct (poll (k1 x) s1') as [[s1'' [z|w g1]]| |]; try exact Hk.
      + destruct Hk as (HG' & Hk). split; [eapply Gtrans; eauto|exact Hk].
      + destruct Hk as (HG' & Hk). split; [eapply Gtrans; eauto|exact Hk].
    - destruct Hf as (HG & HB & H3). split; [exact HG|]. split; [exact HB|]. intros c sc' Esc.
      destruct (H3 c sc' Esc) as (s2' & f2' & E2 & HR2 & HC). rewrite poll_await, E2. exists s2', (await f2' k2).
      split; [reflexivity|]. split; [exact HR2|]. eapply IH; [exact HC|]. intros x y HV. apply (corr_mono (n := Datatypes.S n)); [lia|]. apply Hk0, HV.
    - rewrite poll_await, Hf. reflexivity.
    - rewrite poll_await, Hf. reflexivity.
  Qed.

  (** Code that does not await. *)
  Definition agree {S1 S2 X Y} (v : view P C S1 S2) (V : X -> Y -> Prop) (g1 : S1 -> outcome (S1 * X)) (g2 : S2 -> outcome (S2 * Y)) : Prop :=
    forall sc s1 s2, v_rel v sc s1 s2 ->
      match g1 s1 with
      | Ret (s1', x) => G (v_end v s1) (v_end v s1') /\ exists s2' y, g2 s2 = Ret (s2', y) /\ V x y /\ v_rel v sc s1' s2'
      | Panic => g2 s2 = Panic
      | NoFuel => g2 s2 = NoFuel
      end.

  Lemma corr_sync : forall n S1 S2 X Y (v : view P C S1 S2) (V : X -> Y -> Prop) g1 g2, agree v V g1 g2 -> corr n v V (sync g1) (sync g2).
  Proof.
    intros [|n] S1 S2 X Y v V g1 g2 H; [exact Logic.I|]. intros sc s1 s2 HR. specialize (H sc s1 s2 HR). unfold sync. cbn [poll].
    destruct (g1 s1) as [[s1' x]| |]; cbn [bind].
    - destruct H as (HG & s2' & y & E2 & HV & HR'). split; [exact HG|]. exists s2', y. rewrite E2. auto.
    - now rewrite H.
    - now rewrite H.
  Qed.

  Lemma corr_ret : forall n S1 S2 X Y (v : view P C S1 S2) (V : X -> Y -> Prop) x y, V x y -> corr n v V (ret x) (ret y).
  Proof. intros. apply corr_sync. intros sc s1 s2 HR. split; [apply Grefl|]. eauto. Qed.

  Lemma corr_attempt : forall n S1 S2 X (v : view P C S1 S2) (o : outcome X), corr n v eq (attempt o) (attempt o).
  Proof. intros. apply corr_sync. intros sc s1 s2 HR. destruct o; cbn [bind]; auto. split; [apply Grefl|]. eauto. Qed.

  Lemma corr_out_of_fuel : forall n S1 S2 X Y (v : view P C S1 S2) (V : X -> Y -> Prop), corr n v V out_of_fuel out_of_fuel.
  Proof. intros. apply corr_sync. intros sc s1 s2 HR. reflexivity. Qed.

  Definition related {S1 S2} (v : view P C S1 S2) (s1 : S1) (s2 : S2) : Prop := exists sc, v_rel v sc s1 s2.

  Lemma corr_get : forall n S1 S2 (v : view P C S1 S2), corr n v (related v) get get.
  Proof. intros. apply corr_sync. intros sc s1 s2 HR. split; [apply Grefl|]. exists s2, s2. split; [reflexivity|]. split; [now exists sc|exact HR]. Qed.

  (** Fields. *)
  Record subview {S1 S2 I1 I2} (v : view P C S1 S2) (i : view P C I1 I2) (field1 : S1 -> I1) (set1 : I1 -> S1 -> S1)
      (field2 : S2 -> I2) (set2 : I2 -> S2 -> S2) : Prop := {
    sv_field : forall sc s1 s2, v_rel v sc s1 s2 -> v_rel i sc (field1 s1) (field2 s2);
    sv_set : forall sc sc' s1 s2 i1 i2, v_rel v sc s1 s2 -> v_rel i sc' i1 i2 -> v_rel v sc' (set1 i1 s1) (set2 i2 s2);
    sv_end : forall s, v_end v s = v_end i (field1 s);
    sv_field_set : forall x s, field1 (set1 x s) = x;
    sv_set_set : forall x y s, set1 x (set1 y s) = set1 x s;
    sv_vset : forall p s, v_set v p s = set1 (v_set i p (field1 s)) s
  }.

  Lemma poll_within : forall S I X (field : S -> I) (set : I -> S -> S) (f : fut I X) s,
    poll (within field set f) s = match poll f (field s) with
                                  | Ret (i, Ready x) => Ret (set i s, Ready x)
                                  | Ret (i, Pending w f') => Ret (set i s, Pending w (within field set f'))
                                  | Panic => Panic
                                  | NoFuel => NoFuel
                                  end.
  Proof. intros S I X field set [p] s. reflexivity. Qed.

  Lemma corr_within : forall n S1 S2 I1 I2 X Y (v : view P C S1 S2) (i : view P C I1 I2) field1 set1 field2 set2 (V : X -> Y -> Prop),
    subview v i field1 set1 field2 set2 ->
    forall f1 f2, corr n i V f1 f2 -> corr n v V (within field1 set1 f1) (within field2 set2 f2).
  Proof.
    intros n S1 S2 I1 I2 X Y v i field1 set1 field2 set2 V SV. induction n as [|n IH]; intros f1 f2 H; [exact Logic.I|].
    cbn [corr] in *. intros sc s1 s2 HR. specialize (H sc _ _ (sv_field SV _ _ _ HR)). rewrite !poll_within.
    destruct (poll f1 (field1 s1)) as [[i1 [x|w k1]]| |]; try (now rewrite H).
    - destruct H as (HG & i2 & y & E2 & HV & HR'). rewrite !(sv_end SV), (sv_field_set SV). split; [exact HG|].
      exists (set2 i2 s2), y. rewrite E2. split; [reflexivity|]. split; [exact HV|]. eapply (sv_set SV); eauto.
    - destruct H as (HG & HB & H3). rewrite !(sv_end SV), (sv_field_set SV). split; [exact HG|]. split; [exact HB|].
      intros c sc' Esc. destruct (H3 c sc' Esc) as (i2 & k2 & E2 & HR2 & HC). exists (set2 i2 s2), (within field2 set2 k2). rewrite E2.
      split; [reflexivity|]. split; [|now apply IH]. rewrite (sv_vset SV), (sv_field_set SV), (sv_set_set SV). eapply (sv_set SV); eauto.
  Qed.
End Corr.

(** ** The code of the adaptors *)
Section Code.
  Context {P C : Type} (env : C -> P -> P) (G : P -> P -> Prop) (B : P -> Prop) (N : nat).
  Context (Grefl : forall p, G p p) (Gtrans : forall p q r, G p q -> G q r -> G p r).
  Notation co v V f1 f2 := (corr env G B N v V f1 f2).

  Definition corr_reader {S1 S2 T} (v : view P C S1 S2) (R1 : a_reader S1 T) (R2 : a_reader S2 T) : Prop :=
    forall buf, co v eq (ar_read R1 buf) (ar_read R2 buf).
  Definition corr_buf_reader {S1 S2 T} (v : view P C S1 S2) (R1 : a_buf_reader S1 T) (R2 : a_buf_reader S2 T) : Prop :=
    corr_reader v R1 R2 /\ co v eq (ar_fill_buf R1) (ar_fill_buf R2) /\
    forall n, agree G v eq (fun s => let* s := ar_consume R1 n s in Ret (s, tt)) (fun s => let* s := ar_consume R2 n s in Ret (s, tt)).
  Definition corr_writer {S1 S2 T} (v : view P C S1 S2) (W1 : a_writer S1 T) (W2 : a_writer S2 T) : Prop :=
    (forall buf, co v eq (aw_write W1 buf) (aw_write W2 buf)) /\ co v eq (aw_flush W1) (aw_flush W2) /\ co v eq (aw_close W1) (aw_close W2).
  Definition corr_producer {S1 S2 T F E} (v : view P C S1 S2) (P1 : a_bulk_producer S1 T F E) (P2 : a_bulk_producer S2 T F E) : Prop :=
    co v eq (ap_produce P1) (ap_produce P2) /\ co v eq (ap_slurp P1) (ap_slurp P2) /\ co v eq (ap_expose P1) (ap_expose P2) /\
    (forall n, co v eq (ap_consider P1 n) (ap_consider P2 n)) /\ (forall buf, co v eq (ap_bulk_produce P1 buf) (ap_bulk_produce P2 buf)).
  Definition corr_consumer {S1 S2 T F E} (v : view P C S1 S2) (C1 : a_bulk_consumer S1 T F E) (C2 : a_bulk_consumer S2 T F E) : Prop :=
    (forall x, co v eq (ac_consume C1 x) (ac_consume C2 x)) /\ (forall f, co v eq (ac_close C1 f) (ac_close C2 f)) /\
    co v eq (ac_flush C1) (ac_flush C2) /\ co v eq (ac_expose C1) (ac_expose C2) /\
    (forall ys, agree G v eq (fun s => Ret (ac_write C1 ys s, tt)) (fun s => Ret (ac_write C2 ys s, tt))) /\
    (forall n, co v eq (ac_consume_slots C1 n) (ac_consume_slots C2 n)) /\ (forall buf, co v eq (ac_bulk_consume C1 buf) (ac_bulk_consume C2 buf)).

  Ltac cstep :=
    match goal with
    | |- corr _ _ _ _ _ _ (await get _) (await get _) =>
        eapply corr_await; [exact Gtrans|eapply corr_get; exact Grefl|intros ? ? [? ?]]
    | |- corr _ _ _ _ _ _ (await _ _) (await _ _) =>
        eapply corr_await with (V := eq); [exact Gtrans| |intros ? ? <-]
    | |- corr _ _ _ _ _ _ (ret _) (ret _) => eapply corr_ret; [exact Grefl|auto]
    | |- corr _ _ _ _ _ _ (attempt _) (attempt _) => eapply corr_attempt; exact Grefl
    | |- corr _ _ _ _ _ _ out_of_fuel out_of_fuel => eapply corr_out_of_fuel
    | |- corr _ _ _ _ _ _ (match ?x with _ => _ end) (match ?x with _ => _ end) => destruct x
    | |- corr _ _ _ _ _ _ (let _ := _ in _) (let _ := _ in _) => cbv zeta
    end.
  Ltac cgo := repeat cstep.

  (** *** Default methods *)
  Section Defaults.
    Context {S1 S2 T F E : Type} (v : view P C S1 S2).

    Lemma corr_bulk_produce : forall (e1 : fut S1 (res (list T + F) E)) e2 c1 c2, co v eq e1 e2 -> (forall n, co v eq (c1 n) (c2 n)) ->
      forall buf, co v eq (a_bulk_produce e1 c1 buf) (a_bulk_produce e2 c2 buf).
    Proof. intros e1 e2 c1 c2 He Hc buf. unfold a_bulk_produce. cgo; [exact He|apply Hc]. Qed.

    Lemma corr_bulk_consume : forall (e1 : fut S1 (res nat E)) e2 (w1 : list T -> S1 -> S1) w2 c1 c2, co v eq e1 e2 ->
      (forall ys, agree G v eq (fun s => Ret (w1 ys s, tt)) (fun s => Ret (w2 ys s, tt))) -> (forall n, co v eq (c1 n) (c2 n)) ->
      forall buf, co v eq (a_bulk_consume e1 w1 c1 buf) (a_bulk_consume e2 w2 c2 buf).
    Proof. intros e1 e2 w1 w2 c1 c2 He Hw Hc buf. unfold a_bulk_consume. cgo; [exact He|apply corr_sync, Hw|apply Hc]. Qed.
  End Defaults.

  (** *** Readers *)
  Section Rd.
    Context {S1 S2 T : Type} (v : view P C S1 S2).

    Lemma corr_read_exact : forall (R1 : a_reader S1 T) (R2 : a_reader S2 T), corr_reader v R1 R2 ->
      forall fuel done buf, co v eq (a_read_exact_loop R1 fuel done buf) (a_read_exact_loop R2 fuel done buf).
    Proof.
      intros R1 R2 H. induction fuel as [|fuel IH]; intros done [|b buf]; cbn [a_read_exact_loop]; cgo; try apply H. apply IH.
    Qed.
    Lemma corr_read_one : forall (R1 : a_reader S1 T) (R2 : a_reader S2 T) x0, corr_reader v R1 R2 -> co v eq (a_read_one R1 x0) (a_read_one R2 x0).
    Proof. intros R1 R2 x0 H. unfold a_read_one, a_read_exact. cgo. now apply corr_read_exact. Qed.

    Lemma corr_read_some : forall (R1 : a_reader S1 T) (R2 : a_reader S2 T), corr_reader v R1 R2 ->
      forall buf, co v eq (a_read_some R1 buf) (a_read_some R2 buf).
    Proof. intros R1 R2 H buf. unfold a_read_some. cgo. apply H. Qed.

    Lemma corr_buf_reader_producer : forall (R1 : a_buf_reader S1 T) (R2 : a_buf_reader S2 T) x0, corr_buf_reader v R1 R2 ->
      corr_producer v (a_buf_reader_producer R1 x0) (a_buf_reader_producer R2 x0).
    Proof.
      intros R1 R2 x0 (H1 & H2 & H3). split; [|split; [|split; [|split]]]; cbn [a_buf_reader_producer ap_produce ap_producer ap_buffered ap_slurp ap_expose ap_consider ap_bulk_produce].
      - now apply corr_read_one.
      - unfold a_br_slurp. cgo. exact H2.
      - unfold a_br_expose_items. cgo; exact H2.
      - intros n. unfold a_br_consider_produced. cgo. apply corr_sync, H3.
      - now apply corr_read_some.
    Qed.
  End Rd.

  Section RdQ.
    Context {S1 S2 Q T : Type} (v : view P C S1 S2) (I : queue Q T).

    Definition reader_view : view P C (reader_state S1 Q) (reader_state S2 Q) :=
      mk_view (fun sc s1 s2 => v_rel v sc (rs_reader s1) (rs_reader s2) /\ rs_queue s1 = rs_queue s2)
        (fun s => v_end v (rs_reader s)) (fun p s => mk_reader_state (v_set v p (rs_reader s)) (rs_queue s)).

    Lemma corr_rs : forall X (f1 : fut S1 X) (f2 : fut S2 X), co v eq f1 f2 -> co reader_view eq (a_rs f1) (a_rs f2).
    Proof.
      intros X f1 f2 H. unfold a_rs. eapply corr_within; [|exact H]. constructor; try reflexivity.
      - intros sc s1 s2 [A _]. exact A.
      - intros sc sc' s1 s2 i1 i2 [_ A] D. split; [exact D|exact A].
    Qed.

    Lemma corr_rq : forall X (f : Q -> outcome (Q * X)), co reader_view eq (a_rq f) (a_rq f).
    Proof.
      intros X f. apply corr_sync. intros sc s1 s2 [A D]. rewrite <- D. destruct (f (rs_queue s1)) as [[q x]| |]; cbn [bind]; auto.
      split; [apply Grefl|]. eexists _, _. split; [reflexivity|]. split; [reflexivity|]. split; [exact A|reflexivity].
    Qed.

    Lemma corr_reader_producer : forall (R1 : a_reader S1 T) (R2 : a_reader S2 T) x0, corr_reader v R1 R2 ->
      corr_producer reader_view (a_reader_producer R1 I x0) (a_reader_producer R2 I x0).
    Proof.
      intros R1 R2 x0 H. split; [|split; [|split; [|split]]]; cbn [a_reader_producer ap_produce ap_producer ap_buffered ap_slurp ap_expose ap_consider ap_bulk_produce].
      - unfold a_rd_produce. cgo; [apply corr_rq|]. now apply corr_rs, corr_read_one.
      - unfold a_rd_slurp. cgo.
      - unfold a_rd_expose_items. cstep. match goal with H : v_rel reader_view _ _ _ |- _ => destruct H as [_ EQ] end. rewrite EQ.
        cgo; try apply corr_rq. apply corr_rs, H.
      - intros n. unfold a_rd_consider_produced. cgo. apply corr_rq.
      - intros buf. unfold a_rd_bulk_produce. cstep. match goal with H : v_rel reader_view _ _ _ |- _ => destruct H as [_ EQ] end. rewrite EQ.
        cgo; [|apply corr_rq]. now apply corr_rs, corr_read_some.
    Qed.
  End RdQ.

  (** *** The buffered reader *)
  Section Br.
    Context {S1 S2 T : Type} (v : view P C S1 S2).

    Definition br_view : view P C (br S1 T) (br S2 T) :=
      mk_view (fun sc s1 s2 => v_rel v sc (br_inner s1) (br_inner s2) /\ br_rest s1 = br_rest s2)
        (fun s => v_end v (br_inner s)) (fun p s => mk_br (v_set v p (br_inner s)) (br_rest s)).

    Lemma corr_a_br : forall X (f1 : fut S1 X) (f2 : fut S2 X), co v eq f1 f2 -> co br_view eq (a_br (T := T) f1) (a_br f2).
    Proof.
      intros X f1 f2 H. unfold a_br. eapply corr_within; [|exact H]. constructor; try reflexivity.
      - intros sc s1 s2 [A _]. exact A.
      - intros sc sc' s1 s2 i1 i2 [_ A] D. split; [exact D|exact A].
    Qed.

    Lemma corr_buffered_reader : forall (R1 : a_reader S1 T) (R2 : a_reader S2 T) x0 cap, corr_reader v R1 R2 ->
      corr_buf_reader br_view (buffered_reader R1 x0 cap) (buffered_reader R2 x0 cap).
    Proof.
      intros R1 R2 x0 cap H.
      assert (HF : co br_view eq (br_fill_buf R1 x0 cap) (br_fill_buf R2 x0 cap)).
      { unfold br_fill_buf. cstep. match goal with H : v_rel br_view _ _ _ |- _ => destruct H as [_ EQ] end. rewrite EQ.
        match type of EQ with _ = ?r => destruct r eqn:Er end; cgo; [apply corr_a_br, H|]. apply corr_sync. intros sc s1 s2 [A _]. cbn. split; [apply Grefl|].
        eexists _, _. split; [reflexivity|]. split; [reflexivity|]. split; [exact A|reflexivity]. }
      assert (HC : forall n, agree G br_view eq (fun s => let* s := br_consume n s in Ret (s, tt)) (fun s => let* s := br_consume n s in Ret (s, tt))).
      { intros n sc s1 s2 [A D]. cbn. split; [apply Grefl|]. eexists _, _. split; [reflexivity|]. split; [reflexivity|]. split; [exact A|].
        cbn. now rewrite D. }
      split; [|split; [exact HF|exact HC]].
      intros buf. cbn [buffered_reader ar_read ar_reader]. unfold br_read.
      cstep. match goal with H : v_rel br_view _ _ _ |- _ => destruct H as [_ EQ] end. rewrite EQ.
      match goal with |- corr _ _ _ _ _ _ (if ?b then _ else _) _ => destruct b end; [apply corr_a_br, H|].
      cgo; [exact HF|]. apply corr_sync, HC.
    Qed.
  End Br.

  (** *** Writers *)
  Section Wr.
    Context {S1 S2 Q T : Type} (v : view P C S1 S2) (I : queue Q T) (W1 : a_writer S1 T) (W2 : a_writer S2 T).
    Context (HW : corr_writer v W1 W2).

    Lemma corr_write_all : forall fuel buf, co v eq (a_write_all_loop W1 fuel buf) (a_write_all_loop W2 fuel buf).
    Proof. induction fuel as [|fuel IH]; intros [|b buf]; cbn [a_write_all_loop]; cgo; try apply HW. apply IH. Qed.

    Definition writer_view : view P C (writer_state S1 Q) (writer_state S2 Q) :=
      mk_view (fun sc s1 s2 => v_rel v sc (ws_writer s1) (ws_writer s2) /\ ws_queue s1 = ws_queue s2)
        (fun s => v_end v (ws_writer s)) (fun p s => mk_writer_state (v_set v p (ws_writer s)) (ws_queue s)).

    Lemma corr_ws : forall X (f1 : fut S1 X) (f2 : fut S2 X), co v eq f1 f2 -> co writer_view eq (a_ws f1) (a_ws f2).
    Proof.
      intros X f1 f2 H. unfold a_ws. eapply corr_within; [|exact H]. constructor; try reflexivity.
      - intros sc s1 s2 [A _]. exact A.
      - intros sc sc' s1 s2 i1 i2 [_ A] D. split; [exact D|exact A].
    Qed.

    Lemma corr_wq : forall X (f : Q -> outcome (Q * X)), co writer_view eq (a_wq f) (a_wq f).
    Proof.
      intros X f. apply corr_sync. intros sc s1 s2 [A D]. rewrite <- D. destruct (f (ws_queue s1)) as [[q x]| |]; cbn [bind]; auto.
      split; [apply Grefl|]. eexists _, _. split; [reflexivity|]. split; [reflexivity|]. split; [exact A|reflexivity].
    Qed.

    Lemma corr_flush_internal : forall fuel, co writer_view eq (a_flush_internal_buffer W1 I fuel) (a_flush_internal_buffer W2 I fuel).
    Proof.
      induction fuel as [|fuel IH]; cbn [a_flush_internal_buffer]; cgo; try apply corr_wq; [|exact IH]. apply corr_ws, corr_write_all.
    Qed.

    Lemma corr_writer_consumer : forall fuel, corr_consumer writer_view (a_writer_consumer W1 I fuel) (a_writer_consumer W2 I fuel).
    Proof.
      intros fuel.
      assert (HF : forall X (k1 : fut _ (res X io_error)) k2, co writer_view eq k1 k2 -> co writer_view eq (a_flushed W1 I fuel k1) (a_flushed W2 I fuel k2)).
      { intros X k1 k2 H. unfold a_flushed. cgo; [apply corr_flush_internal|exact H]. }
      split; [|split; [|split; [|split; [|split; [|split]]]]];
        cbn [a_writer_consumer ac_consume ac_consumer ac_buffered ac_close ac_flush ac_expose ac_write ac_consume_slots ac_bulk_consume].
      - intros x. apply HF, corr_ws, corr_write_all.
      - intros f. apply HF, corr_ws, HW.
      - apply HF, corr_ws, HW.
      - apply HF. cgo. apply corr_wq.
      - intros ys sc s1 s2 [A D]. split; [apply Grefl|]. eexists _, _. split; [reflexivity|]. split; [reflexivity|]. split; [exact A|].
        unfold wr_write. cbn. now rewrite D.
      - intros n. unfold a_wr_consume_slots. cgo. apply corr_wq.
      - intros buf. apply HF. cgo. apply corr_ws, HW.
    Qed.
  End Wr.

  (** *** Scramblers *)
  Section Pscr.
    Context {S1 S2 T F E : Type} (v : view P C S1 S2) (dbg : bool) (P1 : a_bulk_producer S1 T F E) (P2 : a_bulk_producer S2 T F E).
    Context (HP : corr_producer v P1 P2).

    Definition pscr_view : view P C (pscr S1 T F E) (pscr S2 T F E) :=
      mk_view (fun sc (s1 : pscr S1 T F E) (s2 : pscr S2 T F E) =>
          v_rel v sc (ps_inner s1) (ps_inner s2) /\ ps_buffer s1 = ps_buffer s2 /\ ps_last s1 = ps_last s2 /\
          ps_operations s1 = ps_operations s2 /\ ps_index s1 = ps_index s2)
        (fun s : pscr S1 T F E => v_end v (ps_inner s)) (fun p s => ps_with_inner (v_set v p (ps_inner s)) s).

    Lemma corr_ps : forall X (f1 : fut S1 X) (f2 : fut S2 X), co v eq f1 f2 -> co pscr_view eq (a_ps f1) (a_ps f2).
    Proof.
      intros X f1 f2 H. unfold a_ps. eapply corr_within; [|exact H]. constructor; try reflexivity.
      - intros sc s1 s2 [A _]. exact A.
      - intros sc sc' s1 s2 i1 i2 [_ A] D. split; [exact D|exact A].
    Qed.

    Ltac psync :=
      apply corr_sync; intros sc [i1 b1 l1 o1 n1] [i2 b2 l2 o2 n2] (A & E1 & E2 & E3 & E4); cbn [ps_buffer ps_last ps_operations ps_index ps_inner] in *;
      subst; unfold pscr_advance, pscr_consider, ps_with_buffer, ps_with_last; cbn [ps_buffer ps_last ps_operations ps_index ps_inner];
      repeat match goal with
             | |- context [bind ?o] => match o with
                                       | Ret _ => fail 1
                                       | bind _ _ => fail 1
                                       | _ => destruct o as [[? ?]| |] || destruct o
                                       end; cbn [bind]
             end;
      try reflexivity; (split; [apply Grefl|]); eexists _, _; (split; [reflexivity|]); (split; [reflexivity|]); (split; [exact A|]); cbn; auto.
    Ltac pgo := repeat (cstep || (apply corr_ps; apply HP) || solve [unfold a_ps_advance, a_ps_set_last; psync]).
    Ltac pget :=
      cstep; match goal with H : v_rel pscr_view _ ?a ?b |- _ =>
        destruct a as [i3 b3 l3 o3 n3], b as [i4 b4 l4 o4 n4]; destruct H as (A & E5 & E6 & E7 & E8) end;
      cbn [ps_buffer ps_last ps_operations ps_index ps_inner ps_len] in *; subst; unfold ps_len; cbn [ps_buffer ps_last ps_index ps_operations]; repeat match goal with H : v_rel v _ _ _ |- _ => clear H end.

    Lemma corr_pscr_perform : co pscr_view eq (a_pscr_perform_operation dbg P1) (a_pscr_perform_operation dbg P2).
    Proof. unfold a_pscr_perform_operation. pget. pgo. Qed.

    Lemma corr_pscr_fill_loop : forall fuel, co pscr_view eq (a_pscr_fill_loop dbg fuel P1) (a_pscr_fill_loop dbg fuel P2).
    Proof.
      induction fuel as [|fuel IH]; cbn [a_pscr_fill_loop]; [pgo|]. pget. cstep; [pgo|]. cstep; [|pgo].
      cstep; [apply corr_pscr_perform|]. pgo; exact IH.
    Qed.

    Lemma corr_pscr_fill_queue : forall fuel, co pscr_view eq (a_pscr_fill_queue dbg fuel P1) (a_pscr_fill_queue dbg fuel P2).
    Proof. intros fuel. unfold a_pscr_fill_queue. cstep; [apply corr_pscr_fill_loop|]. pget. pgo. Qed.

    Lemma corr_pscr_producer : forall fuel, corr_producer pscr_view (a_pscr_producer dbg fuel P1) (a_pscr_producer dbg fuel P2).
    Proof.
      intros fuel.
      assert (HX : co pscr_view eq (a_pscr_expose dbg fuel P1) (a_pscr_expose dbg fuel P2)).
      { unfold a_pscr_expose. cstep; [apply corr_pscr_fill_queue|]. pgo. }
      assert (HK : forall n, co pscr_view eq (sync (pscr_consider n)) (sync (pscr_consider n))) by (intros n; psync).
      split; [|split; [|split; [|split]]]; cbn [a_pscr_producer a_bulk_producer_of ap_produce ap_producer ap_buffered ap_slurp ap_expose ap_consider ap_bulk_produce].
      - unfold a_pscr_produce. cstep; [apply corr_pscr_fill_queue|]. pgo.
      - assert (H : co pscr_view eq (let! r := a_ps (ap_slurp P1) in
            match r with
            | Err err => let! s := get in if ps_len s =? 0 then ret (Err err) else let! _ := a_ps_set_last (Some (Err err)) in ret (Ok tt)
            | Ok tt => ret (Ok tt)
            end) (let! r := a_ps (ap_slurp P2) in
            match r with
            | Err err => let! s := get in if ps_len s =? 0 then ret (Err err) else let! _ := a_ps_set_last (Some (Err err)) in ret (Ok tt)
            | Ok tt => ret (Ok tt)
            end)).
        { cstep; [apply corr_ps, HP|]. cstep; [pgo|]. pget. pgo. }
        unfold a_pscr_slurp. cstep; [apply corr_pscr_fill_queue|]. cbv zeta.
        match goal with |- corr _ _ _ _ _ _ (match ?o with _ => _ end) _ => destruct o as [[f|e]|] end; [|pgo|exact H].
        cstep; [pgo|exact H].
      - exact HX.
      - exact HK.
      - apply corr_bulk_produce; [exact HX|exact HK].
    Qed.
  End Pscr.

  Section Cscr.
    Context {S1 S2 T F E : Type} (v : view P C S1 S2) (dbg : bool) (d : T) (C1 : a_bulk_consumer S1 T F E) (C2 : a_bulk_consumer S2 T F E).
    Context (HC : corr_consumer v C1 C2).

    Definition cscr_view : view P C (cscr S1 T) (cscr S2 T) :=
      mk_view (fun sc (s1 : cscr S1 T) (s2 : cscr S2 T) =>
          v_rel v sc (cs_inner s1) (cs_inner s2) /\ cs_buffer s1 = cs_buffer s2 /\ cs_operations s1 = cs_operations s2 /\ cs_index s1 = cs_index s2)
        (fun s : cscr S1 T => v_end v (cs_inner s)) (fun p s => cs_with_inner (v_set v p (cs_inner s)) s).

    Lemma corr_cs : forall X (f1 : fut S1 X) (f2 : fut S2 X), co v eq f1 f2 -> co cscr_view eq (a_cs f1) (a_cs f2).
    Proof.
      intros X f1 f2 H. unfold a_cs. eapply corr_within; [|exact H]. constructor; try reflexivity.
      - intros sc s1 s2 [A _]. exact A.
      - intros sc sc' s1 s2 i1 i2 [_ A] D. split; [exact D|exact A].
    Qed.

    Ltac csync :=
      apply corr_sync; intros sc [i1 b1 o1 n1] [i2 b2 o2 n2] (A & E1 & E3 & E4); cbn [cs_buffer cs_operations cs_index cs_inner] in *;
      subst; unfold cscr_advance, cscr_consume_slots, cs_with_buffer; cbn [cs_buffer cs_operations cs_index cs_inner];
      repeat match goal with
             | |- context [bind ?o] => match o with
                                       | Ret _ => fail 1
                                       | bind _ _ => fail 1
                                       | _ => destruct o as [[? ?]| |] || destruct o
                                       end; cbn [bind]
             end;
      try reflexivity; (split; [apply Grefl|]); eexists _, _; (split; [reflexivity|]); (split; [reflexivity|]); (split; [exact A|]); cbn; auto.
    Ltac sgo := repeat (cstep || (apply corr_cs; apply HC) || solve [unfold a_cs_enqueue, a_cs_expose_slots; csync]).
    Ltac sget :=
      cstep; match goal with H : v_rel cscr_view _ ?a ?b |- _ =>
        destruct a as [i3 b3 o3 n3], b as [i4 b4 o4 n4]; destruct H as (A & E5 & E7 & E8) end;
      cbn [cs_buffer cs_operations cs_index cs_inner cs_len] in *; subst; unfold cs_len; cbn [cs_buffer cs_index cs_operations]; repeat match goal with H : v_rel v _ _ _ |- _ => clear H end.

    Lemma corr_cscr_perform : co cscr_view eq (a_cscr_perform_operation dbg d C1) (a_cscr_perform_operation dbg d C2).
    Proof.
      unfold a_cscr_perform_operation. sget. sgo.
      apply corr_sync. intros sc [i1 b1 o1 n1] [i2 b2 o2 n2] (A & E1 & E3 & E4). cbn [cs_buffer cs_operations cs_index cs_inner] in *. subst.
      destruct (q_bulk_dequeue _ _ _) as [[b [slots amount]]| |]; cbn [bind]; try reflexivity.
      destruct HC as (_ & _ & _ & _ & HW & _). specialize (HW (firstn amount slots) sc i1 i2 A). cbn in HW.
      destruct HW as (HG & i2' & y & [= <- <-] & _ & A'). split; [exact HG|].
      eexists _, _. split; [reflexivity|]. split; [reflexivity|]. split; [exact A'|]. cbn. auto.
    Qed.

    Lemma corr_cscr_drain : forall fuel, co cscr_view eq (a_cscr_drain dbg d fuel C1) (a_cscr_drain dbg d fuel C2).
    Proof.
      induction fuel as [|fuel IH]; cbn [a_cscr_drain]; [sgo|]. sget. cstep; [|sgo]. cstep; [apply corr_cscr_perform|]. sgo. exact IH.
    Qed.

    Lemma corr_cscr_consumer : forall fuel, corr_consumer cscr_view (a_cscr_consumer dbg d fuel C1) (a_cscr_consumer dbg d fuel C2).
    Proof.
      intros fuel. pose proof (corr_cscr_drain fuel) as HD.
      assert (HX : co cscr_view eq (a_cscr_expose dbg d fuel C1) (a_cscr_expose dbg d fuel C2)) by (unfold a_cscr_expose; sget; sgo; exact HD).
      assert (HY : forall ys, agree G cscr_view eq (fun s => Ret (cscr_write ys s, tt)) (fun s => Ret (cscr_write ys s, tt))).
      { intros ys sc [i1 b1 o1 n1] [i2 b2 o2 n2] (A & E1 & E3 & E4). cbn in *. subst. split; [apply Grefl|].
        eexists _, _. split; [reflexivity|]. split; [reflexivity|]. cbn. auto. }
      assert (HK : forall n, co cscr_view eq (sync (fun s : cscr S1 T => cscr_consume_slots (E := E) n s)) (sync (fun s : cscr S2 T => cscr_consume_slots n s))) by (intros n; csync).
      split; [|split; [|split; [|split; [|split; [|split]]]]];
        cbn [a_cscr_consumer a_bulk_consumer_of ac_consume ac_consumer ac_buffered ac_close ac_flush ac_expose ac_write ac_consume_slots ac_bulk_consume].
      - intros x. unfold a_cscr_consume. sgo; exact HD.
      - intros f. unfold a_cscr_close. sgo; exact HD.
      - unfold a_cscr_flush. sgo; exact HD.
      - exact HX.
      - exact HY.
      - exact HK.
      - apply corr_bulk_consume; [exact HX|exact HY|exact HK].
    Qed.
  End Cscr.

  (** *** The tasks *)
  Lemma corr_fuzz_send : forall S1 S2 E (v : view P C S1 S2) (C1 : a_bulk_consumer S1 nat unit E) (C2 : a_bulk_consumer S2 nat unit E),
    corr_consumer v C1 C2 -> forall input, co v eq (a_fuzz_send C1 input) (a_fuzz_send C2 input).
  Proof.
    intros S1 S2 E v C1 C2 (H1 & H2 & _) input. unfold a_fuzz_send. cstep; [|cgo; apply H2].
    induction input as [|x input IH]; cbn [a_send_each]; cgo; [apply H1|exact IH].
  Qed.

  Lemma corr_fuzz_receive : forall S1 S2 E (v : view P C S1 S2) (P1 : a_bulk_producer S1 nat unit E) (P2 : a_bulk_producer S2 nat unit E),
    corr_producer v P1 P2 -> forall input, co v eq (a_fuzz_receive P1 input) (a_fuzz_receive P2 input).
  Proof.
    intros S1 S2 E v P1 P2 (H1 & _) input. induction input as [|x input IH]; cbn [a_fuzz_receive]; cgo; try apply H1. exact IH.
  Qed.
End Code.

(** Proofs about the library with machine-word arithmetic. *)
From Coq Require Import Bool List Arith Lia.
From Verif Require Import Prelude ListFacts Traits Contracts ContractFacts BasicModel BasicSpec BasicProofs AdaptorModel
  SliceModel QueueModel ScramblerModel WordModel WordProofs WordBasicModel WordBasicSpec.
Import ListNotations.
Set Implicit Arguments.

(** ** Two implementations that agree on permitted calls *)
Lemma p_agree : forall S T F E (P P' : bulk_producer S T F E) (G : S -> pabs T F E -> Prop),
  (forall s a o, G s a -> p_permitted a o -> p_do P' o s = p_do P o s) ->
  (forall s a o s' r a', G s a -> p_permitted a o -> p_do P o s = Ret (s', r) -> p_answer a o r a' -> G s' a') ->
  forall h s a s' a', G s a -> (p_history P' s a h s' a' <-> p_history P s a h s' a').
Proof.
  intros S T F E P P' G HA HG h. induction h as [|[o r] h IH]; intros s a s' a' H.
  - split; intros HH; inversion HH; subst; constructor.
  - split; intros HH; inversion HH as [|? ? ? s1 ? a1 ? ? ? HP HD HR HH']; subst.
    + rewrite (HA _ _ _ H HP) in HD. eapply p_history_step; [exact HP|exact HD|exact HR|]. apply IH; eauto.
    + pose proof HD as HD'. rewrite <- (HA _ _ _ H HP) in HD. eapply p_history_step; [exact HP|exact HD|exact HR|]. apply IH; eauto.
Qed.

Lemma p_agree_conforms : forall S T F E (P P' : bulk_producer S T F E) (G : S -> pabs T F E -> Prop),
  (forall s a o, G s a -> p_permitted a o -> p_do P' o s = p_do P o s) ->
  (forall s a o s' r a', G s a -> p_permitted a o -> p_do P o s = Ret (s', r) -> p_answer a o r a' -> G s' a') ->
  forall ops s a, G s a -> p_conforms P ops s a -> p_conforms P' ops s a.
Proof.
  intros S T F E P P' G HA HG ops. induction ops as [|o ops IH]; intros s a H HC; [constructor|].
  inversion HC as [|? ? ? ? HN|? ? ? ? s1 r a1 HP HD HR HC']; subst; [now apply p_conforms_broken|].
  apply p_conforms_step with s1 r a1; eauto. rewrite (HA _ _ _ H HP). exact HD.
Qed.

(** For consumers, as long as [B] holds before every call. *)
Lemma c_agree : forall S A T F E (C C' : bulk_consumer S T F E) (M : machine A T F E) (G : S -> cabs A T -> Prop)
  (B : cabs A T -> Prop),
  (forall a o r a', c_permitted a o -> c_answer M a o r a' -> B a' -> B a) ->
  (forall s a o, G s a -> B a -> c_permitted a o -> c_do C' o s = c_do C o s) ->
  (forall s a o s' r a', G s a -> B a -> c_permitted a o -> c_do C o s = Ret (s', r) -> c_answer M a o r a' -> G s' a') ->
  forall h s a s' a', G s a -> B a' -> (c_history C' M s a h s' a' <-> c_history C M s a h s' a').
Proof.
  intros S A T F E C C' M G B HB HA HG h.
  assert (HBh : forall D h (s : S) a s' a', c_history D M s a h s' a' -> B a' -> B a).
  { clear - HB. intros D h s a s' a' HH. induction HH as [|s a o s1 r a1 h s2 a2 HP HD HR HH IH]; eauto. }
  induction h as [|[o r] h IH]; intros s a s' a' H Hb.
  - split; intros HH; inversion HH; subst; constructor.
  - split; intros HH; inversion HH as [|? ? ? s1 ? a1 ? ? ? HP HD HR HH']; subst;
      (assert (Hb1 : B a1) by (exact (HBh _ _ _ _ _ _ HH' Hb)));
      (assert (Hba : B a) by (exact (HB _ _ _ _ HP HR Hb1))).
    + rewrite (HA _ _ _ H Hba HP) in HD. eapply c_history_step; [exact HP|exact HD|exact HR|]. apply IH; eauto.
    + pose proof HD as HD'. rewrite <- (HA _ _ _ H Hba HP) in HD. eapply c_history_step; [exact HP|exact HD|exact HR|]. apply IH; eauto.
Qed.

Lemma c_agree_conforms : forall S A T F E (C C' : bulk_consumer S T F E) (M : machine A T F E) (G : S -> cabs A T -> Prop),
  (forall s a o, G s a -> c_permitted a o -> c_do C' o s = c_do C o s) ->
  (forall s a o s' r a', G s a -> c_permitted a o -> c_do C o s = Ret (s', r) -> c_answer M a o r a' -> G s' a') ->
  forall ops s a, G s a -> c_conforms C M ops s a -> c_conforms C' M ops s a.
Proof.
  intros S A T F E C C' M G HA HG ops. induction ops as [|o ops IH]; intros s a H HC; [constructor|].
  inversion HC as [|? ? ? ? HN|? ? ? ? s1 r a1 HP HD HR HC']; subst; [now apply c_conforms_broken|].
  apply c_conforms_step with s1 r a1; eauto. rewrite (HA _ _ _ H HP). exact HD.
Qed.

Section Words.
  Context (W : nat) (checked : bool).

  (** ** FromSlice *)
  Section FromSlice.
    Context {T : Type}.

    Definition fsw (s : from_slice T) (a : pabs T unit infallible) : Prop :=
      length (fs_slice s) < W /\ match a with PActive _ _ k => fs_offset s + k <= length (fs_slice s) | PEnded => True end.

    Lemma fsw_do : forall s a o, fsw s a -> p_permitted a o -> p_do (word_from_slice W checked) o s = p_do from_slice_producer o s.
    Proof.
      intros [v i] [xs l k|] o [HW HG] HP; [|destruct HP]. cbn in HW, HG. destruct o; cbn [p_do p_permitted] in *; try reflexivity.
      - cbn. unfold word_from_slice_produce, from_slice_produce; cbn.
        destruct (Nat.eqb_spec (length v) i); [reflexivity|]. unfold index. destruct (nth_error v i); [|reflexivity]. cbn.
        rewrite wadd_ok by lia. reflexivity.
      - cbn. unfold word_from_slice_consider, from_slice_consider; cbn. rewrite wadd_ok by lia. reflexivity.
      - cbn. unfold default_bulk_produce, from_slice_expose. cbn. rewrite slice_from_ok by lia. cbn [bind].
        destruct (skipn i v) as [|x rest] eqn:E1; [reflexivity|]. cbn [bind].
        pose proof (skipn_length i v) as HL. rewrite E1 in HL.
        unfold word_from_slice_consider, from_slice_consider; cbn [fs_slice fs_offset]. rewrite wadd_ok; [reflexivity|]. lia.
    Qed.

    Lemma fsw_step : forall s a o s' r a', fsw s a -> p_permitted a o ->
      p_do from_slice_producer o s = Ret (s', r) -> p_answer a o r a' -> fsw s' a'.
    Proof.
      intros [v i] [xs l k|] o s' r a' [HW HG] HP HD HA; [|destruct HP]. cbn in HW, HG.
      destruct o; cbn [p_do p_permitted] in *; cbn in HD.
      - unfold from_slice_produce in HD; cbn in HD. destruct (Nat.eqb_spec (length v) i).
        + injection HD as <- <-. cbn in HA. destruct xs; destruct HA as [Hr ->]; [|discriminate]. split; [exact HW|exact Logic.I].
        + unfold index in HD. destruct (nth_error v i) eqn:En; [|discriminate]. cbn in HD. injection HD as <- <-.
          cbn in HA. destruct xs; destruct HA as [Hr ->]; (split; [exact HW|]); [exact Logic.I|]. cbn.
          assert (i < length v) by (apply nth_error_Some; congruence). lia.
      - injection HD as <- <-. cbn in HA. destruct HA as [[_ ->]|(e & _ & _ & _ & ->)]; (split; [exact HW|]); [exact HG|exact Logic.I].
      - unfold from_slice_expose in HD; cbn in HD. rewrite slice_from_ok in HD by lia. cbn [bind] in HD.
        pose proof (skipn_length i v) as HL.
        destruct (skipn i v) as [|x rest] eqn:E1; cbn [bind] in HD; injection HD as <- <-; cbn in HA;
          destruct xs as [|y ys]; try (destruct HA as [Hr ->]; split; [exact HW|exact Logic.I]).
        + destruct HA as (zs & rest & _ & _ & Hz & ->). discriminate.
        + destruct HA as (zs & rest' & _ & _ & Hz & ->). injection Hz as <-. split; [exact HW|]. cbn in *. lia.
      - injection HD as <- <-. cbn in HA. destruct HA as [_ ->]. split; [exact HW|]. cbn. lia.
      - unfold default_bulk_produce, from_slice_expose in HD. cbn in HD. rewrite slice_from_ok in HD by lia. cbn [bind] in HD.
        pose proof (skipn_length i v) as HL.
        destruct (skipn i v) as [|x rest] eqn:E1; cbn [bind] in HD; injection HD as <- <-; cbn in HA;
          destruct xs as [|y ys]; try (destruct HA as (Hr & _ & ->); split; [exact HW|exact Logic.I]);
          destruct HA as (n & Hn & _ & Hr & _ & ->); [discriminate|]. split; [exact HW|]. cbn in *. destruct (length buf); lia.
    Qed.

    Lemma fsw_new : forall l a, length l < W -> a = PActive l (Ok tt) 0 -> fsw (from_slice_new l) a.
    Proof. intros l a H ->. split; [exact H|]. cbn. lia. Qed.
  End FromSlice.

  (** ** IntoSlice *)
  Section IntoSlice.
    Context {A T : Type} (M : machine A T unit unit).

    Definition isw (s : into_slice T) (a : cabs A T) : Prop :=
      length (is_slice s) < W /\
      match a with CActive _ k w => is_offset s + k <= length (is_slice s) /\ length w <= k | CEnded _ => True end.

    Lemma isw_do : forall s a o, isw s a -> c_permitted a o ->
      c_do (word_into_slice W checked) o s = c_do into_slice_consumer o s.
    Proof.
      intros [v i] [a k w|a] o [HW HG] HP; [|destruct HP]. cbn in HW, HG. destruct HG as [HG Hw].
      destruct o; cbn [c_do c_permitted] in *; try reflexivity.
      - cbn. unfold word_into_slice_consume, into_slice_consume; cbn.
        destruct (Nat.eqb_spec (length v) i); [reflexivity|]. rewrite index_set_ok by lia. cbn [bind].
        rewrite wadd_ok by lia. reflexivity.
      - cbn. unfold word_into_slice_consume_slots, into_slice_consume_slots; cbn. rewrite wadd_ok by lia. reflexivity.
      - cbn. unfold default_bulk_consume, into_slice_expose. cbn. destruct (Nat.eqb_spec (length v) i); [reflexivity|].
        rewrite slice_from_ok by lia. cbn [bind]. unfold word_into_slice_consume_slots, into_slice_consume_slots, into_slice_write; cbn.
        rewrite wadd_ok; [reflexivity|]. rewrite skipn_length. lia.
    Qed.

    Lemma isw_step : forall s a o s' r a', isw s a -> c_permitted a o ->
      c_do into_slice_consumer o s = Ret (s', r) -> c_answer M a o r a' -> isw s' a'.
    Proof.
      intros [v i] [a k w|a] o s' r a' [HW HG] HP HD HA; [|destruct HP]. cbn in HW, HG. destruct HG as [HG Hw].
      assert (N : forall (ar : A * res unit unit) v' i', length v' = length v -> i' <= length v -> isw (mk_into_slice v' i') (c_next (T := T) ar 0 [])).
      { intros [a1 [u|e]] v' i' H1 H2; (split; cbn; [lia|]); [cbn; lia|exact Logic.I]. }
      destruct o; cbn [c_do c_permitted] in *; cbn in HD.
      - unfold into_slice_consume in HD; cbn in HD. destruct (Nat.eqb_spec (length v) i).
        + injection HD as <- <-. cbn in HA. destruct HA as [_ ->]. apply N; lia.
        + rewrite index_set_ok in HD by lia. cbn in HD. injection HD as <- <-. cbn in HA. destruct HA as [_ ->].
          apply N; [apply length_blit; cbn; lia|lia].
      - injection HD as <- <-. cbn in HA. destruct HA as [_ ->]. split; [exact HW|exact Logic.I].
      - injection HD as <- <-. cbn in HA. destruct HA as [_ ->]. split; [exact HW|].
        destruct (m_flush M a) as [a1 [|]]; cbn; auto.
      - unfold into_slice_expose in HD; cbn in HD. destruct (Nat.eqb_spec (length v) i).
        + injection HD as <- <-. cbn in HA. destruct HA as [(n & _ & Hr & ->)|(e1 & a1 & _ & _ & ->)]; [discriminate|].
          split; [exact HW|exact Logic.I].
        + rewrite slice_from_ok in HD by lia. cbn in HD. injection HD as <- <-. cbn in HA.
          destruct HA as [(m & _ & Hr & ->)|(e1 & a1 & _ & _ & ->)]; (split; [exact HW|]); [|exact Logic.I].
          injection Hr as <-. cbn. rewrite skipn_length. lia.
      - injection HD as <- <-. cbn in HA. subst a'. unfold into_slice_write; split; cbn [is_slice is_offset].
        + rewrite length_blit; lia.
        + rewrite length_blit by lia. rewrite length_overlay_max. lia.
      - injection HD as <- <-. cbn in HA. destruct (m_feed M (firstn n w) a) as [[a1 m] [e|]]; destruct HA as [_ ->];
          (split; [exact HW|]); [exact Logic.I|]. cbn. rewrite skipn_length. lia.
      - unfold default_bulk_consume, into_slice_expose in HD. cbn in HD. destruct (Nat.eqb_spec (length v) i).
        + cbn [bind] in HD. injection HD as <- <-. cbn in HA.
          destruct HA as [(n & a1 & _ & _ & Hr & ->)|(n & e1 & a1 & _ & _ & ->)]; [discriminate|]. split; [exact HW|exact Logic.I].
        + rewrite slice_from_ok in HD by lia. cbn in HD. injection HD as <- <-. rewrite skipn_length in *.
          assert (HL : length (blit i (firstn (Nat.min (length v - i) (length buf)) buf) v) = length v).
          { apply length_blit. rewrite firstn_length. lia. }
          cbn in HA. destruct HA as [(m & a1 & _ & _ & Hr & ->)|(m & e1 & a1 & _ & Hr & ->)]; [|discriminate].
          unfold blit in HL. split; cbn; rewrite HL; lia.
    Qed.

    Lemma isw_new : forall l a, length l < W -> isw (into_slice_new l) (CActive a 0 []).
    Proof. intros l a H. split; [exact H|]. cbn. lia. Qed.
  End IntoSlice.

  (** ** Limit *)
  Section Limit.
    Context {S T F E : Type}.

    Definition limw (s : limit S) (a : pabs T (option F) E) : Prop :=
      match a with PActive _ _ k => k <= lim_remaining s | PEnded => True end.

    Lemma limw_do : forall (P : bulk_producer S T F E) s a o, limw s a -> p_permitted a o ->
      p_do (word_limit_producer W checked P) o s = p_do (limit_producer P) o s.
    Proof.
      intros P [i m] [xs l k|] o HG HP; [|destruct HP]. cbn in HG. destruct o; cbn [p_do p_permitted] in *; try reflexivity.
      - cbn. unfold word_limit_consider, limit_consider; cbn. rewrite wsub_ok, csub_ok by lia. reflexivity.
      - cbn. unfold default_bulk_produce, limit_expose. cbn. destruct (Nat.eqb_spec m 0); [reflexivity|].
        destruct (p_expose P i) as [[i1 [[ys|f]|e]]| |]; cbn [bind]; try reflexivity.
        rewrite slice_to_ok by (cbn; lia). cbn [bind].
        unfold word_limit_consider, limit_consider; cbn [lim_remaining lim_inner].
        rewrite wsub_ok, csub_ok; [reflexivity| |]; rewrite firstn_length; cbn; lia.
    Qed.

    Lemma limw_step : forall (P : bulk_producer S T F E) s a o s' r a', limw s a -> p_permitted a o ->
      p_do (limit_producer P) o s = Ret (s', r) -> p_answer a o r a' -> limw s' a'.
    Proof.
      intros P [i m] [xs l k|] o s' r a' HG HP HD HA; [|destruct HP]. cbn in HG.
      destruct o; cbn [p_do p_permitted] in *; cbn in HD.
      - unfold limit_produce in HD; cbn in HD. destruct m as [|m].
        + cbn [bind] in HD. injection HD as <- <-. cbn in HA. destruct xs; destruct HA as [Hr ->]; [exact Logic.I|discriminate].
        + destruct (p_produce P i) as [[i1 [[y|f]|e]]| |]; cbn [bind] in HD; try discriminate; injection HD as <- <-;
            cbn in HA; destruct xs; destruct HA as [Hr ->]; try exact Logic.I; try discriminate. cbn. lia.
      - unfold limit_slurp in HD; cbn in HD. destruct (p_slurp P i) as [[i1 r1]| |]; cbn [bind] in HD; try discriminate.
        injection HD as <- <-. cbn in HA. destruct HA as [[_ ->]|(e & _ & _ & _ & ->)]; [exact HG|exact Logic.I].
      - unfold limit_expose in HD; cbn in HD. destruct (Nat.eqb_spec m 0).
        + cbn [bind] in HD. injection HD as <- <-. cbn in HA. destruct xs; [destruct HA as [_ ->]; exact Logic.I|].
          destruct HA as (ys & rest & _ & _ & Hr & _). discriminate.
        + destruct (p_expose P i) as [[i1 [[ys|f]|e]]| |]; cbn [bind] in HD; try discriminate.
          * rewrite slice_to_ok in HD by (cbn; lia). cbn [bind] in HD. injection HD as <- <-. cbn in HA.
            destruct xs; [destruct HA as [_ ->]; exact Logic.I|].
            destruct HA as (zs & rest & _ & _ & Hr & ->). injection Hr as <-. cbn. rewrite firstn_length. lia.
          * injection HD as <- <-. cbn in HA. destruct xs; [destruct HA as [_ ->]; exact Logic.I|].
            destruct HA as (zs & rest & _ & _ & Hr & _). discriminate.
          * injection HD as <- <-. cbn in HA. destruct xs; [destruct HA as [_ ->]; exact Logic.I|].
            destruct HA as (zs & rest & _ & _ & Hr & _). discriminate.
      - unfold limit_consider in HD; cbn in HD. rewrite csub_ok in HD by lia. cbn [bind] in HD.
        destruct (p_consider P n i) as [[i1 r1]| |]; cbn [bind] in HD; try discriminate. injection HD as <- <-.
        cbn in HA. destruct HA as [_ ->]. cbn. lia.
      - destruct r as [| | |b r]; cbn in HA; try contradiction. destruct xs.
        + destruct HA as (_ & _ & ->). exact Logic.I.
        + destruct HA as (n & _ & _ & _ & _ & ->). cbn. lia.
    Qed.

    Context {A : Type} (M : machine A T F (option E)).

    Definition limcw (s : limit S) (a : cabs A T) : Prop :=
      match a with CActive _ k w => k <= lim_remaining s /\ length w <= k | CEnded _ => True end.

    Lemma limcw_do : forall (C : bulk_consumer S T F E) s a o, limcw s a -> c_permitted a o ->
      c_do (word_limit_consumer W checked C) o s = c_do (limit_consumer C) o s.
    Proof.
      intros C [i m] [a k w|a] o HG HP; [|destruct HP]. cbn in HG. destruct HG as [HG Hw].
      destruct o; cbn [c_do c_permitted] in *; try reflexivity.
      - cbn. unfold word_limit_consume_slots, limit_consume_slots; cbn. rewrite wsub_ok, csub_ok by lia. reflexivity.
      - cbn. unfold default_bulk_consume, limit_expose_slots. cbn. destruct (Nat.eqb_spec m 0); [reflexivity|].
        destruct (c_expose C i) as [[i1 [n1|e]]| |]; cbn [bind]; try reflexivity.
        unfold word_limit_consume_slots, limit_consume_slots, limit_write; cbn [lim_remaining lim_inner].
        rewrite wsub_ok, csub_ok; [reflexivity| |]; cbn; lia.
    Qed.

    Lemma limcw_next : forall (ar : A * res unit (option E)) (s : limit S), limcw s (c_next ar 0 []).
    Proof. intros [a [u|e]] s; cbn; auto. split; lia. Qed.

    Lemma limcw_step : forall (C : bulk_consumer S T F E) s a o s' r a', limcw s a -> c_permitted a o ->
      c_do (limit_consumer C) o s = Ret (s', r) -> c_answer M a o r a' -> limcw s' a'.
    Proof.
      intros C [i m] [a k w|a] o s' r a' HG HP HD HA; [|destruct HP]. cbn in HG. destruct HG as [HG Hw].
      destruct o; cbn [c_do c_permitted] in *; cbn in HD.
      - destruct r; cbn in HA; try contradiction. destruct HA as [_ ->]. apply limcw_next.
      - destruct r; cbn in HA; try contradiction. destruct HA as [_ ->]. exact Logic.I.
      - unfold limit_flush in HD; cbn in HD. destruct (c_flush C i) as [[i1 r1]| |]; cbn [bind] in HD; try discriminate.
        injection HD as <- <-. cbn in HA. destruct HA as [_ ->]. destruct (m_flush M a) as [a1 [|]]; cbn; auto.
      - unfold limit_expose_slots in HD; cbn in HD. destruct (Nat.eqb_spec m 0).
        + cbn [bind] in HD. injection HD as <- <-. cbn in HA.
          destruct HA as [(n & _ & Hr & ->)|(e1 & a1 & _ & _ & ->)]; [discriminate|exact Logic.I].
        + destruct (c_expose C i) as [[i1 [n1|e]]| |]; cbn [bind] in HD; try discriminate; injection HD as <- <-; cbn in HA;
            destruct HA as [(n' & _ & Hr & ->)|(e1 & a1 & _ & Hr & ->)]; try discriminate; try exact Logic.I.
          injection Hr as <-. cbn. lia.
      - injection HD as <- <-. cbn in HA. subst a'. cbn. rewrite length_overlay_max. lia.
      - unfold limit_consume_slots in HD; cbn in HD. rewrite csub_ok in HD by lia. cbn [bind] in HD.
        destruct (c_consume_slots C n i) as [[i1 r1]| |]; cbn [bind] in HD; try discriminate. injection HD as <- <-.
        cbn in HA. destruct (m_feed M (firstn n w) a) as [[a1 q] [e|]]; destruct HA as [_ ->]; [exact Logic.I|].
        cbn. rewrite skipn_length. lia.
      - destruct r as [| |r|]; cbn in HA; try contradiction.
        destruct HA as [(n & a1 & _ & _ & _ & ->)|(n & e1 & a1 & _ & _ & ->)]; [|exact Logic.I]. cbn. lia.
    Qed.

    (** ** The checker *)
    Lemma word_invariant_consider_eq : forall (P : bulk_producer S T F E) n s,
      word_invariant_consider W checked P n s = invariant_consider P n s.
    Proof.
      intros P n s. unfold word_invariant_consider, invariant_consider, inv_check. destruct (inv_active s); [|reflexivity].
      destruct (Nat.ltb_spec (inv_exposed s) n); [reflexivity|]. now rewrite wsub_ok, csub_ok by lia.
    Qed.

    Lemma word_invariant_consume_slots_eq : forall (C : bulk_consumer S T F E) n s,
      word_invariant_consume_slots W checked C n s = invariant_consume_slots C n s.
    Proof.
      intros C n s. unfold word_invariant_consume_slots, invariant_consume_slots, inv_check. destruct (inv_active s); [|reflexivity].
      destruct (Nat.ltb_spec (inv_exposed s) n); [reflexivity|]. now rewrite wsub_ok, csub_ok by lia.
    Qed.
  End Limit.

  (** ** Round-robin indices *)
  Lemma word_yielder_poll_eq : forall y, length (y_pattern y) < W -> word_yielder_poll W checked y = yielder_poll y.
  Proof.
    intros y H. unfold word_yielder_poll, yielder_poll, index. destruct (nth_error (y_pattern y) (y_index y)) eqn:E1; [|reflexivity].
    assert (y_index y < length (y_pattern y)) by (apply nth_error_Some; congruence). cbn [bind]. now rewrite wadd_ok by lia.
  Qed.

  Lemma word_next_size_eq : forall sz, length (fst sz) < W -> word_next_size W checked sz = next_size sz.
  Proof.
    intros [xs i] H. unfold word_next_size, next_size, index. cbn in *. destruct (nth_error xs i) eqn:E1; [|reflexivity].
    assert (i < length xs) by (apply nth_error_Some; congruence). cbn [bind]. now rewrite wadd_ok by lia.
  Qed.

  Lemma word_pscr_advance_eq : forall S T F E (s : pscr S T F E), ps_index s < length (ps_operations s) ->
    length (ps_operations s) < W -> word_pscr_advance W checked s = pscr_advance s.
  Proof. intros S T F E s H1 H2. unfold word_pscr_advance, pscr_advance. now rewrite wadd_ok by lia. Qed.

  Lemma word_cscr_advance_eq : forall S T (s : cscr S T), cs_index s < length (cs_operations s) ->
    length (cs_operations s) < W -> word_cscr_advance W checked s = cscr_advance s.
  Proof. intros S T s H1 H2. unfold word_cscr_advance, cscr_advance. now rewrite wadd_ok by lia. Qed.

  (** ** TestConsumer *)
  Section TestConsumer.
    Context {A T F E : Type} (default : T) (M : machine A T F E).
    Notation state := (test_consumer_state T F E).

    Definition tcw (s : state) (a : cabs A T) : Prop :=
      match a with CActive _ k w => k <= tc_left s /\ length w <= k | CEnded _ => True end.

    Lemma tcy_left : forall (s s' : state), tc_maybe_yield s = Ret s' -> tc_left s' = tc_left s.
    Proof.
      intros s s'. unfold tc_maybe_yield. destruct (maybe_yield (tc_yielder s)); cbn [bind]; try discriminate. now intros [= <-].
    Qed.

    Lemma tce_left : forall (s s' : state) e, tc_check_error s = Ret (s', e) ->
      tc_left s' = tc_left s /\ (e = None -> s' = s /\ 1 <= tc_left s).
    Proof.
      intros s s' e. unfold tc_check_error. destruct (Nat.eqb_spec (tc_left s) 0).
      - destruct (expect (tc_error s)); cbn [bind]; try discriminate. intros [= <- <-]. split; [reflexivity|discriminate].
      - intros [= <- <-]. split; [reflexivity|]. intros _. split; [reflexivity|lia].
    Qed.

    Lemma word_tc_slots_eq : forall n (s : state), n <= tc_left s ->
      word_test_consumer_consume_slots W checked n s = test_consumer_consume_slots n s.
    Proof.
      intros n s H. unfold word_test_consumer_consume_slots, test_consumer_consume_slots.
      destruct (tc_maybe_yield s) as [s1| |] eqn:E1; cbn [bind]; try reflexivity. apply tcy_left in E1.
      destruct (tc_check_error s1) as [[s2 [e|]]| |] eqn:E2; cbn [bind]; try reflexivity.
      apply tce_left in E2 as [E2 E3]. rewrite wsub_ok, csub_ok by lia. reflexivity.
    Qed.

    Lemma tc_expose_left : forall (s s' : state) n, test_consumer_expose default s = Ret (s', Ok n) ->
      n <= tc_left s' /\ tc_left s' = tc_left s.
    Proof.
      intros s s' n. unfold test_consumer_expose.
      destruct (tc_maybe_yield s) as [s1| |] eqn:E1; cbn [bind]; try discriminate. apply tcy_left in E1.
      destruct (tc_check_error s1) as [[s2 [e|]]| |] eqn:E2; cbn [bind]; try discriminate.
      apply tce_left in E2 as [E2 E3].
      match goal with |- (let* _ := ?q in _) = _ -> _ => destruct q as [[m z]| |] end; cbn [bind]; try discriminate.
      destruct (tc_grow _ _ _ _) as [i| |]; cbn [bind]; try discriminate.
      destruct (into_vec_expose default i) as [[i2 [sl|e]]| |]; cbn [bind]; try discriminate.
      intros [= <- <-]. cbn. lia.
    Qed.

    Lemma tcw_do : forall s a o, tcw s a -> c_permitted a o ->
      c_do (word_test_consumer W checked default) o s = c_do (test_consumer default) o s.
    Proof.
      intros s [a k w|a] o HG HP; [|destruct HP]. cbn in HG. destruct HG as [HG Hw].
      destruct o; cbn [c_do c_permitted] in *; try reflexivity.
      - cbn. unfold word_test_consumer_consume, test_consumer_consume.
        destruct (tc_maybe_yield s) as [s1| |] eqn:E1; cbn [bind]; try reflexivity. apply tcy_left in E1.
        destruct (tc_check_error s1) as [[s2 [e|]]| |] eqn:E2; cbn [bind]; try reflexivity.
        apply tce_left in E2 as [E2 E3]. destruct E3 as [-> E3]; [reflexivity|].
        destruct (into_vec_consume default x (tc_inner s1)) as [[i r]| |]; cbn [bind]; try reflexivity.
        rewrite wsub_ok, csub_ok by lia. reflexivity.
      - cbn. rewrite word_tc_slots_eq by lia. reflexivity.
      - cbn. unfold default_bulk_consume. destruct (test_consumer_expose default s) as [[s1 [n|e]]| |] eqn:E1; cbn [bind]; try reflexivity.
        apply tc_expose_left in E1. rewrite word_tc_slots_eq; [reflexivity|]. unfold test_consumer_write; cbn [tc_left]. lia.
    Qed.

    Lemma tcw_next : forall (ar : A * res unit E) (s : state), tcw s (c_next ar 0 []).
    Proof. intros [a [u|e]] s; cbn; auto. split; lia. Qed.

    Lemma tcw_step : forall s a o s' r a', tcw s a -> c_permitted a o ->
      c_do (test_consumer default) o s = Ret (s', r) -> c_answer M a o r a' -> tcw s' a'.
    Proof.
      intros s [a k w|a] o s' r a' HG HP HD HA; [|destruct HP]. cbn in HG. destruct HG as [HG Hw].
      destruct o; cbn [c_do c_permitted] in *; cbn in HD.
      - destruct r; cbn in HA; try contradiction. destruct HA as [_ ->]. apply tcw_next.
      - destruct r; cbn in HA; try contradiction. destruct HA as [_ ->]. exact Logic.I.
      - unfold test_consumer_flush in HD.
        destruct (tc_maybe_yield s) as [s1| |] eqn:E1; cbn [bind] in HD; try discriminate. apply tcy_left in E1.
        destruct (tc_check_error s1) as [[s2 [e|]]| |] eqn:E2; cbn [bind] in HD; try discriminate;
          apply tce_left in E2 as [E2 _]; injection HD as <- <-; cbn in HA; destruct HA as [_ ->];
          destruct (m_flush M a) as [a1 [|]]; cbn; auto; lia.
      - destruct (test_consumer_expose default s) as [[s1 [n|e]]| |] eqn:E1; cbn [bind] in HD; try discriminate.
        + apply tc_expose_left in E1. injection HD as <- <-. cbn in HA.
          destruct HA as [(n' & _ & Hr & ->)|(e1 & a1 & _ & Hr & ->)]; [|discriminate]. injection Hr as <-. cbn. lia.
        + injection HD as <- <-. cbn in HA. destruct HA as [(n' & _ & Hr & ->)|(e1 & a1 & _ & Hr & ->)]; [discriminate|exact Logic.I].
      - injection HD as <- <-. cbn in HA. subst a'. cbn. rewrite length_overlay_max. lia.
      - unfold test_consumer_consume_slots in HD.
        destruct (tc_maybe_yield s) as [s1| |] eqn:E1; cbn [bind] in HD; try discriminate. apply tcy_left in E1.
        destruct (tc_check_error s1) as [[s2 [e|]]| |] eqn:E2; cbn [bind] in HD; try discriminate; apply tce_left in E2 as [E2 E3].
        + injection HD as <- <-. cbn in HA. destruct (m_feed M (firstn n w) a) as [[a1 q] [e1|]]; destruct HA as [Hr ->];
            [exact Logic.I|discriminate].
        + rewrite csub_ok in HD by lia. cbn [bind] in HD. injection HD as <- <-.
          cbn in HA. destruct (m_feed M (firstn n w) a) as [[a1 q] [e1|]]; destruct HA as [_ ->]; [exact Logic.I|].
          cbn. rewrite skipn_length. lia.
      - destruct r as [| |r|]; cbn in HA; try contradiction.
        destruct HA as [(n & a1 & _ & _ & _ & ->)|(n & e1 & a1 & _ & _ & ->)]; [|exact Logic.I]. cbn. lia.
    Qed.
  End TestConsumer.

  (** ** IntoVec *)
  Section IntoVec.
    Context {T : Type} (default : T) (max_len : nat) (Hmax : max_len < W).
    Notation M := (collect_machine T unit infallible).
    Notation C := (into_vec_consumer default).
    Notation C' := (word_into_vec W checked default max_len).

    Definition ivw (s : into_vec T) (a : cabs (list T) T) : Prop :=
      c_rel (@iv_rel T) (@iv_end T) s a /\ length (iv_v s) <= max_len.

    Definition fits (a : cabs (list T) T) : Prop := 2 * length (consumed_items a) + 1 <= max_len.

    Lemma word_make_space_eq : forall s, iv_consumed s <= length (iv_v s) -> 2 * iv_consumed s + 1 <= max_len ->
      word_make_space_if_needed W checked default max_len s = Ret (into_vec_make_space_if_needed default s).
    Proof.
      intros [v c] H1 H2; cbn in *. unfold word_make_space_if_needed, into_vec_make_space_if_needed, wdouble, word_resize_default; cbn.
      destruct (Nat.eqb_spec c (length v)); [|reflexivity]. rewrite wadd_ok by lia. cbn [bind]. rewrite wadd_ok by lia. cbn [bind].
      destruct (Nat.leb_spec (c + c + 1) max_len); [|lia]. cbn [bind]. now replace (c * 2) with (c + c) by lia.
    Qed.

    Lemma make_space_len : forall s : into_vec T, iv_consumed s <= length (iv_v s) ->
      iv_consumed (into_vec_make_space_if_needed default s) = iv_consumed s /\
      iv_consumed s < length (iv_v (into_vec_make_space_if_needed default s)) /\
      length (iv_v (into_vec_make_space_if_needed default s)) <= Nat.max (2 * iv_consumed s + 1) (length (iv_v s)).
    Proof.
      intros [v c] H. cbn [iv_v iv_consumed] in *. unfold into_vec_make_space_if_needed. cbn [iv_v iv_consumed].
      destruct (Nat.eqb_spec c (length v)); cbn [iv_v iv_consumed].
      - rewrite length_resize. lia.
      - lia.
    Qed.

    Lemma ivw_do : forall s a o, ivw s a -> fits a -> c_permitted a o -> c_do C' o s = c_do C o s.
    Proof.
      intros s [log k w|log] o [HR HL] HB HP; [|destruct HP]. unfold fits in HB. cbn in HB. destruct HR as (H1 & H2 & H3 & _).
      assert (MS := @word_make_space_eq s ltac:(lia) ltac:(lia)).
      destruct (@make_space_len s ltac:(lia)) as (L1 & L2 & L3).
      destruct o; cbn [c_do c_permitted] in *; try reflexivity.
      - cbn. unfold word_into_vec_consume, into_vec_consume. rewrite MS. cbn [bind].
        rewrite index_set_ok by lia. cbn [bind]. rewrite wadd_ok by lia. reflexivity.
      - cbn. unfold word_into_vec_expose, into_vec_expose. rewrite MS. reflexivity.
      - cbn. unfold word_into_vec_consume_slots, into_vec_consume_slots. rewrite wadd_ok by lia. reflexivity.
      - cbn. unfold default_bulk_consume, word_into_vec_expose, into_vec_expose. rewrite MS. cbn [bind].
        rewrite slice_from_ok by lia. cbn [bind].
        unfold word_into_vec_consume_slots, into_vec_consume_slots, into_vec_write; cbn [iv_v iv_consumed].
        rewrite wadd_ok; [reflexivity|]. rewrite skipn_length. lia.
    Qed.

    Lemma ivw_step : forall s a o s' r a', ivw s a -> fits a -> c_permitted a o ->
      c_do C o s = Ret (s', r) -> c_answer M a o r a' -> ivw s' a'.
    Proof.
      intros s a o s' r a' [HR HL] HB HP HD HA. split.
      { destruct (@lawful_c_step _ _ _ _ _ C M iv_rel iv_end o s a (into_vec_lawful default) HR HP) as (s1 & r1 & a1 & E1 & HA1 & HR1).
        rewrite HD in E1. injection E1 as <- <-. now rewrite (c_answer_det default _ _ _ _ _ HA HA1). }
      destruct a as [log k w|log]; [|destruct HP]. unfold fits in HB. cbn in HB. destruct HR as (H1 & H2 & H3 & _).
      destruct (@make_space_len s ltac:(lia)) as (L1 & L2 & L3).
      destruct o; cbn [c_do c_permitted] in *; cbn in HD; try (injection HD as <- <-; exact HL).
      - unfold into_vec_consume in HD. rewrite index_set_ok in HD by lia. cbn [bind] in HD. injection HD as <- <-. cbn [iv_v].
        rewrite length_blit by (cbn; lia). lia.
      - unfold into_vec_expose in HD. rewrite slice_from_ok in HD by lia. cbn [bind] in HD. injection HD as <- <-. lia.
      - injection HD as <- <-. cbn. rewrite length_blit by lia. exact HL.
      - unfold default_bulk_consume, into_vec_expose in HD. rewrite slice_from_ok in HD by lia. cbn [bind] in HD.
        unfold into_vec_consume_slots, into_vec_write in HD. cbn in HD. injection HD as <- <-. cbn [iv_v].
        rewrite length_blit; [lia|]. rewrite firstn_length, skipn_length. lia.
    Qed.

    Lemma fits_back : forall a o r a', c_permitted a o -> c_answer M a o r a' -> fits a' -> fits a.
    Proof.
      clear Hmax.
      intros [log k w|log] o r a' HP HA; [|destruct HP]. unfold fits.
      assert (H : length log <= length (consumed_items a')); [|cbn; lia].
      destruct o; destruct r; cbn in HA; try contradiction.
      - destruct HA as [_ ->]. cbn. rewrite app_length. lia.
      - destruct HA as [_ ->]. cbn. lia.
      - destruct HA as [_ ->]. cbn. lia.
      - destruct HA as [(n & _ & _ & ->)|(e & a1 & HX & _ & ->)]; [cbn; lia|]. destruct e.
      - subst a'. cbn. lia.
      - rewrite collect_feed in HA. destruct HA as [_ ->]. cbn. rewrite app_length. lia.
      - destruct HA as [(n & a1 & _ & HF & _ & ->)|(n & e & a1 & HF & _ & ->)]; [|destruct e].
        rewrite collect_feed in HF. injection HF as <- _. cbn. rewrite app_length. lia.
    Qed.

    Lemma ivw_from_vec : forall v, length v <= max_len -> ivw (into_vec_from_vec v) (CActive v 0 []).
    Proof. intros v H. split; [exact (iv_rel_from_vec v)|exact H]. Qed.

    Lemma word_into_vec_history : forall h v s a, length v <= max_len -> fits a ->
      (c_history C' M (into_vec_from_vec v) (CActive v 0 []) h s a <-> c_history C M (into_vec_from_vec v) (CActive v 0 []) h s a).
    Proof.
      intros h v s a HL HB. apply (@c_agree _ _ _ _ _ C C' M ivw fits fits_back ivw_do ivw_step); [now apply ivw_from_vec|exact HB].
    Qed.

    (** The state of a history of the word version. *)
    Lemma word_into_vec_reach : forall h s a s' a', c_history C' M s a h s' a' -> ivw s a -> fits a' -> ivw s' a'.
    Proof.
      intros h s a s' a' HH. induction HH as [s0 a0|s a o s1 r a1 h s2 a2 HP HD HA HH IH]; intros HI HB; [exact HI|].
      assert (Ha1 : fits a1).
      { clear - HH HB. induction HH as [s0 a0|s a o s1 r a1 h s2 a2 HP HD HA HH IH]; [exact HB|]. apply (@fits_back _ _ _ _ HP HA). auto. }
      pose proof (@fits_back _ _ _ _ HP HA Ha1) as Ha. rewrite (ivw_do _ HI Ha HP) in HD. apply IH; [|exact HB].
      exact (@ivw_step _ _ _ _ _ _ HI Ha HP HD HA).
    Qed.

    Lemma word_into_vec_step : forall h v s a o, length v <= max_len ->
      c_history C' M (into_vec_from_vec v) (CActive v 0 []) h s a -> fits a -> c_permitted a o ->
      exists s' r a', c_do C' o s = Ret (s', r) /\ c_answer M a o r a'.
    Proof.
      intros h v s a o HL HH HB HP. pose proof (word_into_vec_reach HH (@ivw_from_vec _ HL) HB) as HI.
      rewrite (ivw_do _ HI HB HP).
      destruct (@lawful_c_step _ _ _ _ _ C M iv_rel iv_end o s a (into_vec_lawful default) (proj1 HI) HP) as (s1 & r1 & a1 & E1 & HA1 & _).
      eauto.
    Qed.

    (** Making room for more slots. *)
    Lemma word_tc_grow_eq : forall fuel min_len i, iv_consumed i <= length (iv_v i) <= max_len ->
      2 * (iv_consumed i + min_len) <= max_len + 1 ->
      word_tc_grow W checked default max_len fuel min_len i = tc_grow default fuel min_len i /\
      forall i', tc_grow default fuel min_len i = Ret i' -> iv_consumed i' = iv_consumed i /\ length (iv_v i) <= length (iv_v i') <= max_len.
    Proof.
      induction fuel as [|fuel IH]; intros min_len i H1 H2; [split; [reflexivity|discriminate]|]. cbn [word_tc_grow tc_grow].
      unfold word_remaining_slots, into_vec_remaining_slots. rewrite wsub_ok, csub_ok by lia. cbn [bind].
      destruct (Nat.ltb_spec (length (iv_v i) - iv_consumed i) min_len) as [Hlt|Hge].
      - assert (HE : word_make_space_even_if_not_needed W checked default max_len i = Ret (into_vec_make_space_even_if_not_needed default i)).
        { unfold word_make_space_even_if_not_needed, into_vec_make_space_even_if_not_needed, wdouble, word_resize_default.
          rewrite wadd_ok by lia. cbn [bind]. rewrite wadd_ok by lia. cbn [bind].
          destruct (Nat.leb_spec (length (iv_v i) + length (iv_v i) + 1) max_len); [|lia]. cbn [bind].
          now replace (length (iv_v i) * 2) with (length (iv_v i) + length (iv_v i)) by lia. }
        assert (HL : length (iv_v (into_vec_make_space_even_if_not_needed default i)) = length (iv_v i) * 2 + 1) by (apply length_resize).
        assert (HC : iv_consumed (into_vec_make_space_even_if_not_needed default i) = iv_consumed i) by reflexivity.
        rewrite HE. cbn [bind]. destruct (IH min_len (into_vec_make_space_even_if_not_needed default i)) as [I1 I2]; [lia|lia|].
        split; [exact I1|]. intros i' E1. destruct (I2 i' E1). lia.
      - split; [reflexivity|]. intros i' [= <-]. lia.
    Qed.

    Lemma word_tc_expose_eq : forall F E (s : test_consumer_state T F E), iv_consumed (tc_inner s) <= length (iv_v (tc_inner s)) <= max_len ->
      2 * (iv_consumed (tc_inner s) + 2048) <= max_len + 1 ->
      match tc_sizes s with Some (sizes, _) => length sizes < W | None => True end ->
      word_test_consumer_expose W checked default max_len s = test_consumer_expose default s.
    Proof.
      intros F E s H1. set (big := 2048) at 1. assert (Hbig : forall m, min_opt 2048 m <= big) by (intros [m|]; [apply Nat.le_min_l|apply le_n]).
      assert (H0 : 1 <= big) by (unfold big; apply le_n_S, Nat.le_0_l).
      clearbody big. intros H2 H3. unfold word_test_consumer_expose, test_consumer_expose.
      destruct (tc_maybe_yield s) as [s1| |] eqn:E1; cbn [bind]; try reflexivity.
      assert (tc_inner s1 = tc_inner s /\ tc_sizes s1 = tc_sizes s) as [I1 I2].
      { unfold tc_maybe_yield in E1. destruct (maybe_yield (tc_yielder s)); cbn [bind] in E1; try discriminate. injection E1 as <-. now split. }
      destruct (tc_check_error s1) as [[s2 [e|]]| |] eqn:E2; cbn [bind]; try reflexivity.
      apply tce_left in E2 as [_ E2]. destruct E2 as [-> _]; [reflexivity|]. rewrite I1, I2.
      destruct (tc_sizes s) as [[sizes j]|]; cbn [bind].
      - rewrite word_next_size_eq by exact H3. destruct (next_size (sizes, j)) as [[n sz]| |]; cbn [bind]; try reflexivity.
        specialize (Hbig (Some n)). generalize dependent (min_opt 2048 (Some n)). intros ml Hml.
        destruct (@word_tc_grow_eq (ml + 1) ml (tc_inner s) H1) as [G1 G2]; [lia|]. rewrite G1.
        destruct (tc_grow default (ml + 1) ml (tc_inner s)) as [i| |]; cbn [bind]; try reflexivity. destruct (G2 i eq_refl) as [L1 L2].
        unfold word_into_vec_expose, into_vec_expose. now rewrite word_make_space_eq by lia.
      - specialize (Hbig None). generalize dependent (min_opt 2048 None). intros ml Hml.
        destruct (@word_tc_grow_eq (ml + 1) ml (tc_inner s) H1) as [G1 G2]; [lia|]. rewrite G1.
        destruct (tc_grow default (ml + 1) ml (tc_inner s)) as [i| |]; cbn [bind]; try reflexivity. destruct (G2 i eq_refl) as [L1 L2].
        unfold word_into_vec_expose, into_vec_expose. now rewrite word_make_space_eq by lia.
    Qed.

    (** A full vector can grow exactly if twice its length plus one fits. *)
    Lemma word_full_grow : forall v, length v < W ->
      word_make_space_if_needed W checked default max_len (into_vec_from_vec v) =
        (if 2 * length v + 1 <=? max_len then Ret (into_vec_make_space_if_needed default (into_vec_from_vec v))
         else if checked then Panic
         else if max_len <? (2 * length v + 1) mod W then Panic
         else Ret (mk_into_vec (resize_default default ((2 * length v + 1) mod W) v) (length v))).
    Proof.
      intros v H. destruct (Nat.leb_spec (2 * length v + 1) max_len) as [Hle|Hgt].
      - apply word_make_space_eq; cbn; lia.
      - unfold word_make_space_if_needed, wdouble, wadd, word_resize_default; cbn [into_vec_from_vec iv_v iv_consumed].
        rewrite Nat.eqb_refl. remember (length v) as n. clear Heqn.
        destruct (Nat.ltb_spec (n + n) W) as [H1|H1]; cbn [bind].
        + destruct (Nat.ltb_spec (n + n + 1) W) as [H2|H2]; cbn [bind].
          * rewrite Nat.mod_small by lia. replace (2 * n + 1) with (n + n + 1) by lia.
            destruct (Nat.leb_spec (n + n + 1) max_len); [lia|]. cbn [bind].
            destruct (Nat.ltb_spec max_len (n + n + 1)); [|lia]. destruct checked; reflexivity.
          * destruct checked; [reflexivity|]. cbn [bind]. replace (2 * n + 1) with (0 + 1 * W) by lia. rewrite Nat.mod_add by lia.
            rewrite Nat.mod_small by lia. replace (n + n + 1 - W) with 0 by lia.
            destruct (Nat.leb_spec 0 max_len); [|lia]. destruct (Nat.ltb_spec max_len 0); [lia|]. reflexivity.
        + destruct checked; [reflexivity|]. cbn [bind].
          replace (2 * n + 1) with (n + n - W + 1 + 1 * W) by lia. rewrite Nat.mod_add by lia.
          destruct (Nat.ltb_spec (n + n - W + 1) W) as [H2|H2]; cbn [bind].
          * rewrite Nat.mod_small by lia.
            destruct (Nat.leb_spec (n + n - W + 1) max_len); destruct (Nat.ltb_spec max_len (n + n - W + 1)); try lia; reflexivity.
          * lia.
    Qed.

    (** Otherwise the next item makes it panic, in both builds. *)
    Lemma word_consume_full : forall v x, length v <= max_len ->
      word_into_vec_consume W checked default max_len x (into_vec_from_vec v) =
        if 2 * length v + 1 <=? max_len then into_vec_consume default x (into_vec_from_vec v) else Panic.
    Proof.
      intros v x H. unfold word_into_vec_consume. rewrite word_full_grow by lia.
      destruct (Nat.leb_spec (2 * length v + 1) max_len) as [Hle|Hgt].
      - cbn [bind]. unfold into_vec_consume. destruct (@make_space_len (into_vec_from_vec v)) as (L1 & L2 & L3); [cbn; lia|].
        cbn [into_vec_from_vec iv_v iv_consumed] in *. rewrite index_set_ok by lia. cbn [bind]. rewrite wadd_ok by lia. reflexivity.
      - destruct checked; [reflexivity|]. destruct (Nat.ltb_spec max_len ((2 * length v + 1) mod W)); [reflexivity|].
        cbn [bind iv_consumed iv_v]. unfold index_set. rewrite length_resize.
        destruct (Nat.ltb_spec (length v) ((2 * length v + 1) mod W)) as [Hc|Hc]; [|reflexivity]. exfalso.
        destruct (le_lt_dec W (2 * length v + 1)) as [HW|HW].
        + replace (2 * length v + 1) with (2 * length v + 1 - W + 1 * W) in Hc by lia.
          rewrite Nat.mod_add, Nat.mod_small in Hc by lia. lia.
        + rewrite Nat.mod_small in * by lia. lia.
    Qed.
  End IntoVec.

  (** ** Loops *)
  Section Loops.
    Context {S A T F E : Type} (C : bulk_consumer S T F E) (M : machine A T F E) (R : S -> A -> nat -> list T -> Prop) (D : S -> A -> Prop)
      (L : lawful_consumer C M R D).

    Lemma word_bulk_consume_full_slice_eq : forall buf, length buf < W -> forall fuel i s a k w, R s a k w -> i <= length buf ->
      word_bulk_consume_full_slice_loop W checked fuel C i buf s = bulk_consume_full_slice_loop fuel C i buf s.
    Proof.
      intros buf HW. induction fuel as [|fuel IH]; intros i s a k w HR Hi; [reflexivity|].
      cbn [word_bulk_consume_full_slice_loop bulk_consume_full_slice_loop].
      destruct (Nat.ltb_spec i (length buf)) as [Hlt|]; [|reflexivity]. rewrite slice_from_ok by lia. cbn [bind].
      assert (Hlen : length (skipn i buf) = length buf - i) by apply skipn_length.
      assert (Hne : skipn i buf <> []) by (intros H; rewrite H in Hlen; cbn in Hlen; lia).
      destruct (lc_bulk L _ HR Hne) as [(s1 & n & a1 & E1 & Hn & HF & HC1)|(s1 & n & e & a1 & E1 & HF & HD)];
        rewrite E1; cbn [bind]; [|reflexivity].
      rewrite wadd_ok by lia. cbn [bind]. apply (IH _ _ _ _ _ HC1). lia.
    Qed.
  End Loops.

  Section ProducerLoops.
    Context {S T F E : Type} (P : bulk_producer S T F E) (R : S -> list T -> res F E -> nat -> Prop) (D : S -> Prop)
      (L : lawful_producer P R D).

    Lemma word_bulk_overwrite_full_slice_eq : forall fuel i buf s xs l k, length buf < W -> R s xs l k -> i <= length buf ->
      word_bulk_overwrite_full_slice_loop W checked fuel P i buf s = bulk_overwrite_full_slice_loop fuel P i buf s.
    Proof.
      induction fuel as [|fuel IH]; intros i buf s xs l k HW HR Hi; [reflexivity|].
      cbn [word_bulk_overwrite_full_slice_loop bulk_overwrite_full_slice_loop].
      destruct (Nat.ltb_spec i (length buf)) as [Hlt|]; [|reflexivity]. rewrite slice_from_ok by lia. cbn [bind].
      assert (Hlen : length (skipn i buf) = length buf - i) by apply skipn_length.
      assert (Hne : skipn i buf <> []) by (intros H; rewrite H in Hlen; cbn in Hlen; lia).
      pose proof (lp_bulk L _ HR Hne) as HB. destruct xs as [|x xs].
      - destruct HB as (s1 & E1 & _). rewrite E1. cbn [bind]. destruct l; reflexivity.
      - destruct HB as (s1 & n & E1 & Hn & Hn2 & HR1). rewrite E1. cbn [bind]. rewrite wadd_ok by lia. cbn [bind].
        apply (IH _ _ _ _ _ _) with (2 := HR1).
        + rewrite !app_length, firstn_length, firstn_length, !skipn_length. lia.
        + rewrite !app_length, firstn_length, firstn_length, !skipn_length. lia.
    Qed.
  End ProducerLoops.

  Section Pipes.
    Context {SP SC T F PE CE : Type}.

    Lemma word_pipe_at_most_eq : forall (P : producer SP T F PE) (C : consumer SC T F CE) count, count < W ->
      forall todo fuel piped sp sc, piped + todo = count -> todo < fuel ->
      word_pipe_at_most_loop W checked fuel P C count piped sp sc = pipe_at_most_loop todo P C piped sp sc.
    Proof.
      intros P C count HW. induction todo as [|todo IH]; intros fuel piped sp sc Hp Hf;
        (destruct fuel as [|fuel]; [lia|]); cbn [word_pipe_at_most_loop pipe_at_most_loop].
      - destruct (Nat.ltb_spec piped count); [lia|]. reflexivity.
      - destruct (Nat.ltb_spec piped count); [|lia].
        destruct (p_produce P sp) as [[sp1 [[x|f]|e]]| |]; cbn [bind]; try reflexivity.
        destruct (c_consume C x sc) as [[sc1 [[]|e]]| |]; cbn [bind]; try reflexivity.
        rewrite wadd_ok by lia. cbn [bind]. apply IH; lia.
    Qed.

    Context {A : Type} (P : bulk_producer SP T F PE) (RP : SP -> list T -> res F PE -> nat -> Prop) (DP : SP -> Prop)
      (LP : lawful_producer P RP DP)
      (C : bulk_consumer SC T F CE) (M : machine A T F CE) (RC : SC -> A -> nat -> list T -> Prop) (DC : SC -> A -> Prop)
      (LC : lawful_consumer C M RC DC).

    Lemma word_bulk_pipe_at_most_eq : forall count, count < W ->
      forall fuel piped sp xs l k sc a kc w, RP sp xs l k -> RC sc a kc w -> piped <= count ->
      word_bulk_pipe_at_most_loop W checked fuel P C count piped sp sc = bulk_pipe_at_most_loop fuel P C count piped sp sc.
    Proof.
      intros count HW. induction fuel as [|fuel IH]; intros piped sp xs l k sc a kc w HP HC Hp; [reflexivity|].
      cbn [word_bulk_pipe_at_most_loop bulk_pipe_at_most_loop].
      destruct (Nat.ltb_spec piped count) as [Hlt|]; [|reflexivity].
      destruct xs as [|x xs].
      - destruct (lp_expose_last LP HP) as (sp1 & E1 & _). rewrite E1. cbn [bind]. destruct l; reflexivity.
      - destruct (lp_expose LP HP) as (sp1 & ys & rest & E1 & Hne & Heq & HP1); [discriminate|]. rewrite E1. cbn [bind].
        rewrite wsub_ok, csub_ok by lia. cbn [bind]. rewrite slice_to_ok by lia. cbn [bind].
        assert (Hy : 1 <= length ys) by (destruct ys; [congruence|cbn; lia]).
        assert (Hl : length (firstn (Nat.min (count - piped) (length ys)) ys) = Nat.min (count - piped) (length ys))
          by (rewrite firstn_length; lia).
        assert (Hne' : firstn (Nat.min (count - piped) (length ys)) ys <> []) by (intros H; rewrite H in Hl; cbn in Hl; lia).
        destruct (lc_bulk LC _ HC Hne') as [(s1 & n & a1 & E2 & Hn & HF & HC1)|(s1 & n & e & a1 & E2 & HF & HD)];
          rewrite E2; cbn [bind]; [|reflexivity].
        destruct (lp_consider LP n HP1) as (sp2 & E3 & HP2); [lia|lia|]. rewrite E3. cbn [bind].
        rewrite wadd_ok by lia. cbn [bind]. eapply IH; [exact HP2|exact HC1|lia].
    Qed.
  End Pipes.
End Words.

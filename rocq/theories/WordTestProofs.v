(** Proofs about [TestProducer] and [TestConsumer] with machine-word arithmetic. *)
From Coq Require Import Bool List Arith Lia.
From Verif Require Import Prelude ListFacts Traits Contracts ContractFacts BasicModel BasicSpec BasicProofs WordModel WordProofs
  WordBasicModel WordBasicSpec WordBasicProofs WordTestModel.
Import ListNotations.
Set Implicit Arguments.

Section Words.
  Context (W : nat) (checked : bool).

  Definition oyw (y : option yielder) : Prop := match y with Some y => length (y_pattern y) < W | None => True end.
  Definition szw (sz : option (list nat * nat)) : Prop := match sz with Some (l, _) => length l < W | None => True end.

  (** ** The yielder and the sizes *)
  Lemma yielder_poll_pattern : forall y y' b, yielder_poll y = Ret (y', b) -> y_pattern y' = y_pattern y.
  Proof.
    intros y y' b. unfold yielder_poll. destruct (index (y_index y) (y_pattern y)); cbn [bind]; try discriminate.
    destruct (cmod _ _); cbn [bind]; try discriminate. now intros [= <- _].
  Qed.

  Lemma word_await_eq : forall fuel y, length (y_pattern y) < W ->
    word_yielder_await W checked fuel y = yielder_await fuel y /\ forall y', yielder_await fuel y = Ret y' -> y_pattern y' = y_pattern y.
  Proof.
    induction fuel as [|fuel IH]; intros y H; [split; [reflexivity|discriminate]|]. cbn [word_yielder_await yielder_await].
    rewrite word_yielder_poll_eq by exact H. destruct (yielder_poll y) as [[y1 b]| |] eqn:E1; cbn [bind]; try (split; [reflexivity|discriminate]).
    apply yielder_poll_pattern in E1. destruct b.
    - split; [reflexivity|]. now intros y' [= <-].
    - destruct (IH y1) as [I1 I2]; [now rewrite E1|]. split; [exact I1|]. intros y' H1. rewrite (I2 _ H1). exact E1.
  Qed.

  Lemma word_maybe_yield_eq : forall y, oyw y -> word_maybe_yield W checked y = maybe_yield y /\ forall y', maybe_yield y = Ret y' -> oyw y'.
  Proof.
    intros [y|] H; cbn in *; [|split; [reflexivity|now intros y' [= <-]]].
    destruct (@word_await_eq (length (y_pattern y)) y H) as [H1 H2]. rewrite H1.
    destruct (yielder_await (length (y_pattern y)) y) as [y1| |]; cbn [bind]; (split; [reflexivity|]); try discriminate.
    intros y' [= <-]. cbn. now rewrite (H2 y1 eq_refl).
  Qed.

  Lemma next_size_list : forall sz n sz', next_size sz = Ret (n, sz') -> fst sz' = fst sz.
  Proof.
    intros sz n sz'. unfold next_size. destruct (index (snd sz) (fst sz)); cbn [bind]; try discriminate.
    destruct (cmod _ _); cbn [bind]; try discriminate. now intros [= _ <-].
  Qed.

  Lemma szw_next : forall sz n sz', szw (Some sz) -> next_size sz = Ret (n, sz') -> szw (Some sz').
  Proof. intros [l i] n [l' i'] H1 H2. apply next_size_list in H2. cbn in *. now rewrite H2. Qed.

  (** ** TestProducer *)
  Section TestProducer.
    Context {T F E : Type}.
    Notation state := (test_producer_state T F E).
    Notation P := (@test_producer T F E).
    Notation P' := (@word_test_producer W checked T F E).

    Definition tp_words (s : state) : Prop := length (fs_slice (tp_inner s)) < W /\ szw (tp_sizes s) /\ oyw (tp_yielder s).
    Definition tpw (s : state) (a : pabs T F E) : Prop := p_rel (@tp_rel T F E) (@tp_end T F E) s a /\ tp_words s.

    Lemma word_tp_yield_eq : forall s : state, oyw (tp_yielder s) -> word_tp_maybe_yield W checked s = tp_maybe_yield s.
    Proof. intros s H. unfold word_tp_maybe_yield, tp_maybe_yield. now rewrite (proj1 (word_maybe_yield_eq _ H)). Qed.

    Lemma tp_yield_words : forall s s' : state, tp_words s -> tp_maybe_yield s = Ret s' -> tp_words s' /\ tp_inner s' = tp_inner s.
    Proof.
      intros s s' (H1 & H2 & H3). unfold tp_maybe_yield. destruct (maybe_yield (tp_yielder s)) as [y| |] eqn:E1; cbn [bind]; try discriminate.
      intros [= <-]. split; [|reflexivity]. split; [exact H1|split; [exact H2|]]. exact (proj2 (word_maybe_yield_eq _ H3) _ E1).
    Qed.

    Lemma tp_take_words : forall (s s' : state) l, tp_words s -> tp_take_last s = Ret (s', l) -> tp_words s'.
    Proof.
      intros s s' l H. unfold tp_take_last. destruct (expect (tp_last s)); cbn [bind]; try discriminate. now intros [= <- _].
    Qed.

    Lemma tp_check_words : forall (s s' : state) e, tp_words s -> tp_check_error s = Ret (s', e) -> tp_words s' /\ tp_inner s' = tp_inner s.
    Proof.
      intros s s' e H. unfold tp_check_error. destruct (from_slice_not_yet_produced (tp_inner s)) as [[|x xs]| |]; cbn [bind]; try discriminate.
      - destruct (expect (tp_last s)) as [[f|e']| |]; cbn [bind]; try discriminate; now intros [= <- _].
      - now intros [= <- _].
    Qed.

    Lemma fs_produce_words : forall (s s' : from_slice T) r, from_slice_produce s = Ret (s', r) -> fs_slice s' = fs_slice s.
    Proof.
      intros s s' r. unfold from_slice_produce. destruct (_ =? _); [now intros [= <- _]|].
      destruct (index _ _); cbn [bind]; try discriminate. now intros [= <- _].
    Qed.

    Lemma fs_expose_same : forall (s s' : from_slice T) r, from_slice_expose s = Ret (s', r) -> s' = s.
    Proof.
      intros s s' r. unfold from_slice_expose. destruct (slice_from _ _) as [[|x xs]| |]; cbn [bind]; try discriminate; now intros [= <- _].
    Qed.

    Lemma tp_produce_words : forall (s s' : state) r, tp_words s -> test_producer_produce s = Ret (s', r) -> tp_words s'.
    Proof.
      intros s s' r H. unfold test_producer_produce. destruct (tp_maybe_yield s) as [s1| |] eqn:E1; cbn [bind]; try discriminate.
      apply (tp_yield_words H) in E1 as [H1 _].
      destruct (from_slice_not_yet_produced (tp_inner s1)) as [[|x xs]| |]; cbn [bind]; try discriminate.
      - destruct (tp_take_last s1) as [[s2 l]| |] eqn:E2; cbn [bind]; try discriminate.
        apply (tp_take_words H1) in E2. destruct l; now intros [= <- _].
      - destruct (from_slice_produce (tp_inner s1)) as [[i r1]| |] eqn:E2; cbn [bind]; try discriminate.
        apply fs_produce_words in E2. destruct (unwrap_left r1); cbn [bind]; try discriminate. intros [= <- _].
        destruct H1 as (H1 & H2 & H3). split; [|split]; cbn; [now rewrite E2|exact H2|exact H3].
    Qed.

    Lemma tp_slurp_words : forall (s s' : state) r, tp_words s -> test_producer_slurp s = Ret (s', r) -> tp_words s'.
    Proof.
      intros s s' r H. unfold test_producer_slurp. destruct (tp_maybe_yield s) as [s1| |] eqn:E1; cbn [bind]; try discriminate.
      apply (tp_yield_words H) in E1 as [H1 _].
      destruct (tp_check_error s1) as [[s2 e]| |] eqn:E2; cbn [bind]; try discriminate.
      apply (tp_check_words H1) in E2 as [H2 _]. destruct e; now intros [= <- _].
    Qed.

    Lemma tp_expose_words : forall (s s' : state) r, tp_words s -> test_producer_expose s = Ret (s', r) ->
      tp_words s' /\ tp_inner s' = tp_inner s.
    Proof.
      intros s s' r H. unfold test_producer_expose. destruct (tp_maybe_yield s) as [s1| |] eqn:E1; cbn [bind]; try discriminate.
      apply (tp_yield_words H) in E1 as [H1 Hi].
      destruct (from_slice_not_yet_produced (tp_inner s1)) as [[|x xs]| |]; cbn [bind]; try discriminate.
      - unfold tp_take_last. destruct (expect (tp_last s1)) as [[f|e]| |]; cbn [bind]; try discriminate;
          (intros [= <- _]; split; [exact H1|exact Hi]).
      - destruct H1 as (H1 & H2 & H3). destruct (tp_sizes s1) as [sz|] eqn:Esz.
        + destruct (next_size sz) as [[n sz']| |] eqn:E2; cbn [bind]; try discriminate.
          destruct (from_slice_expose (tp_inner s1)) as [[i r1]| |] eqn:E3; cbn [bind]; try discriminate.
          apply fs_expose_same in E3. subst i. destruct (unwrap_left r1); cbn [bind]; try discriminate.
          destruct (slice_to _ _); cbn [bind]; try discriminate. intros [= <- _]. split; [|exact Hi].
          split; [exact H1|split; [|exact H3]]. exact (@szw_next _ _ _ H2 E2).
        + destruct (from_slice_expose (tp_inner s1)) as [[i r1]| |] eqn:E3; cbn [bind]; try discriminate.
          apply fs_expose_same in E3. subst i. destruct (unwrap_left r1); cbn [bind]; try discriminate. intros [= <- _].
          split; [|exact Hi]. split; [exact H1|split; [|exact H3]]. cbn. now rewrite Esz.
    Qed.

    Lemma tp_consider_words : forall n (s s' : state) r, tp_words s -> test_producer_consider n s = Ret (s', r) -> tp_words s'.
    Proof.
      intros n s s' r H. unfold test_producer_consider. destruct (tp_maybe_yield s) as [s1| |] eqn:E1; cbn [bind]; try discriminate.
      apply (tp_yield_words H) in E1 as [H1 _].
      destruct (tp_check_error s1) as [[s2 e]| |] eqn:E2; cbn [bind]; try discriminate.
      apply (tp_check_words H1) in E2 as [H2 _]. destruct e; now intros [= <- _].
    Qed.

    Lemma tp_do_words : forall o (s s' : state) r, tp_words s -> p_do P o s = Ret (s', r) -> tp_words s'.
    Proof.
      intros o s s' r H. destruct o; cbn [p_do]; cbn.
      - destruct (test_producer_produce s) as [[s1 r1]| |] eqn:E1; cbn [bind]; try discriminate. intros [= <- _].
        exact (tp_produce_words H E1).
      - destruct (test_producer_slurp s) as [[s1 r1]| |] eqn:E1; cbn [bind]; try discriminate. intros [= <- _].
        exact (tp_slurp_words H E1).
      - destruct (test_producer_expose s) as [[s1 r1]| |] eqn:E1; cbn [bind]; try discriminate. intros [= <- _].
        exact (proj1 (tp_expose_words H E1)).
      - destruct (test_producer_consider n s) as [[s1 r1]| |] eqn:E1; cbn [bind]; try discriminate. intros [= <- _].
        exact (tp_consider_words _ H E1).
      - unfold default_bulk_produce. destruct (test_producer_expose s) as [[s1 [[ys|f]|e]]| |] eqn:E1; cbn [bind]; try discriminate;
          apply (tp_expose_words H) in E1 as [H1 _]; try (intros [= <- _]; exact H1).
        destruct (test_producer_consider _ s1) as [[s2 r2]| |] eqn:E2; cbn [bind]; try discriminate.
        apply (tp_consider_words _ H1) in E2. destruct r2 as [[]|]; cbn [bind]; intros [= <- _]; exact E2.
    Qed.

    Lemma word_tp_produce_eq : forall s : state, tp_words s -> word_test_producer_produce W checked s = test_producer_produce s.
    Proof.
      intros s H. unfold word_test_producer_produce, test_producer_produce. rewrite word_tp_yield_eq by apply H.
      destruct (tp_maybe_yield s) as [s1| |] eqn:E1; cbn [bind]; try reflexivity. apply (tp_yield_words H) in E1 as [(H1 & _) _].
      destruct (from_slice_not_yet_produced (tp_inner s1)) as [[|x xs]| |]; cbn [bind]; try reflexivity.
      unfold word_from_slice_produce, from_slice_produce. destruct (Nat.eqb_spec (length (fs_slice (tp_inner s1))) (fs_offset (tp_inner s1))); [reflexivity|].
      unfold index. destruct (nth_error (fs_slice (tp_inner s1)) (fs_offset (tp_inner s1))) eqn:E2; [|reflexivity]. cbn [bind].
      assert (fs_offset (tp_inner s1) < length (fs_slice (tp_inner s1))) by (apply nth_error_Some; congruence).
      rewrite wadd_ok by lia. reflexivity.
    Qed.

    Lemma word_tp_slurp_eq : forall s : state, tp_words s -> word_test_producer_slurp W checked s = test_producer_slurp s.
    Proof. intros s H. unfold word_test_producer_slurp, test_producer_slurp. now rewrite word_tp_yield_eq by apply H. Qed.

    Lemma word_tp_expose_eq : forall s : state, tp_words s -> word_test_producer_expose W checked s = test_producer_expose s.
    Proof.
      intros s H. unfold word_test_producer_expose, test_producer_expose. rewrite word_tp_yield_eq by apply H.
      destruct (tp_maybe_yield s) as [s1| |] eqn:E1; cbn [bind]; try reflexivity. apply (tp_yield_words H) in E1 as [(_ & H1 & _) _].
      destruct (from_slice_not_yet_produced (tp_inner s1)) as [[|x xs]| |]; cbn [bind]; try reflexivity.
      destruct (tp_sizes s1) as [[l j]|]; [|reflexivity]. now rewrite word_next_size_eq by exact H1.
    Qed.

    Lemma word_tp_consider_eq : forall n (s : state), tp_words s -> fs_offset (tp_inner s) + n <= length (fs_slice (tp_inner s)) ->
      word_test_producer_consider W checked n s = test_producer_consider n s.
    Proof.
      intros n s H Hn. unfold word_test_producer_consider, test_producer_consider. rewrite word_tp_yield_eq by apply H.
      destruct (tp_maybe_yield s) as [s1| |] eqn:E1; cbn [bind]; try reflexivity. apply (tp_yield_words H) in E1 as [H1 Hi].
      destruct (tp_check_error s1) as [[s2 e]| |] eqn:E2; cbn [bind]; try reflexivity.
      apply (tp_check_words H1) in E2 as [H2 Hi2]. destruct e; [reflexivity|].
      unfold word_from_slice_consider, from_slice_consider. rewrite Hi2, Hi. destruct H as (H & _). rewrite wadd_ok by lia. reflexivity.
    Qed.

    Lemma tp_expose_room : forall (s s' : state) ys, tp_words s -> test_producer_expose s = Ret (s', Ok (inl ys)) ->
      fs_offset (tp_inner s') + length ys <= length (fs_slice (tp_inner s')).
    Proof.
      intros s s' ys H. unfold test_producer_expose. destruct (tp_maybe_yield s) as [s1| |] eqn:E1; cbn [bind]; try discriminate.
      destruct (from_slice_not_yet_produced (tp_inner s1)) as [[|x xs]| |] eqn:E2; cbn [bind]; try discriminate.
      - unfold tp_take_last. destruct (expect (tp_last s1)) as [[f|e]| |]; cbn [bind]; discriminate.
      - assert (HX : forall i r1 zs, from_slice_expose (tp_inner s1) = Ret (i, r1) -> unwrap_left r1 = Ret zs ->
          i = tp_inner s1 /\ fs_offset i + length zs <= length (fs_slice i)).
        { intros i r1 zs E3 E4. pose proof (fs_expose_same _ E3) as ->. split; [reflexivity|]. unfold from_slice_expose in E3.
          destruct (le_lt_dec (fs_offset (tp_inner s1)) (length (fs_slice (tp_inner s1)))) as [Hle|Hlt].
          - rewrite slice_from_ok in E3 by exact Hle. cbn [bind] in E3. pose proof (skipn_length (fs_offset (tp_inner s1)) (fs_slice (tp_inner s1))) as HL.
            destruct (skipn (fs_offset (tp_inner s1)) (fs_slice (tp_inner s1))); injection E3 as <-; cbn [unwrap_left] in E4;
              try discriminate. injection E4 as <-. lia.
          - unfold slice_from in E3. match goal with H : context [?a <? ?b] |- _ => destruct (Nat.ltb_spec a b) | H : context [?a <=? ?b] |- _ => destruct (Nat.leb_spec a b) end; [discriminate|lia]. }
        destruct (tp_sizes s1) as [sz|].
        + destruct (next_size sz) as [[n sz']| |]; cbn [bind]; try discriminate.
          destruct (from_slice_expose (tp_inner s1)) as [[i r1]| |] eqn:E3; cbn [bind]; try discriminate.
          destruct (unwrap_left r1) as [zs| |] eqn:E4; cbn [bind]; try discriminate. destruct (HX _ _ _ eq_refl E4) as [-> HY].
          rewrite slice_to_ok by apply Nat.le_min_l. cbn [bind]. intros [= <- <-]. cbn [tp_inner]. rewrite firstn_length. lia.
        + destruct (from_slice_expose (tp_inner s1)) as [[i r1]| |] eqn:E3; cbn [bind]; try discriminate.
          destruct (unwrap_left r1) as [zs| |] eqn:E4; cbn [bind]; try discriminate. destruct (HX _ _ _ eq_refl E4) as [-> HY].
          intros [= <- <-]. exact HY.
    Qed.

    Lemma tpw_do : forall s a o, tpw s a -> p_permitted a o -> p_do P' o s = p_do P o s.
    Proof.
      intros s [xs l k|] o [HR HW] HP; [|destruct HP]. cbn in HR. destruct HR as ((R1 & R2 & _ & R3) & _).
      destruct o; cbn [p_do p_permitted] in *; cbn.
      - now rewrite word_tp_produce_eq.
      - now rewrite word_tp_slurp_eq.
      - now rewrite word_tp_expose_eq.
      - rewrite word_tp_consider_eq; auto. subst xs. rewrite skipn_length in R3. lia.
      - unfold default_bulk_produce. rewrite word_tp_expose_eq by exact HW.
        destruct (test_producer_expose s) as [[s1 [[ys|f]|e]]| |] eqn:E1; cbn [bind]; try reflexivity.
        rewrite word_tp_consider_eq; [reflexivity|exact (proj1 (tp_expose_words HW E1))|].
        pose proof (tp_expose_room HW E1). lia.
    Qed.

    Lemma tpw_step : forall s a o s' r a', tpw s a -> p_permitted a o -> p_do P o s = Ret (s', r) -> p_answer a o r a' -> tpw s' a'.
    Proof.
      intros s a o s' r a' [HR HW] HP HD HA. split; [|exact (tp_do_words _ HW HD)].
      destruct (@lawful_p_step _ _ _ _ P (@tp_rel T F E) (@tp_end T F E) o s a test_producer_lawful) as (s1 & r1 & a1 & E1 & HA1 & HR1);
        [left; apply test_producer_slurp_lawful|exact HR|exact HP|].
      rewrite HD in E1. injection E1 as <- <-. now rewrite (p_answer_det _ _ _ _ _ HA HA1).
    Qed.
  End TestProducer.

  (** ** TestConsumer *)
  Section TestConsumer.
    Context {T F E : Type} (default : T) (error : E) (max_len : nat) (Hmax : max_len < W).
    Notation state := (test_consumer_state T F E).
    Notation C := (@test_consumer T F E default).
    Notation C' := (@word_consumer W checked T F E default max_len).
    Notation M := (failing_machine T F error).
    Notation Rel := (c_rel (tc_rel (T := T) (F := F) error) (tc_end error)).

    Definition tc_words (s : state) : Prop := length (iv_v (tc_inner s)) <= max_len /\ szw (tc_sizes s) /\ oyw (tc_yielder s).
    Definition tcx (s : state) (a : cabs (tstate T F) T) : Prop := Rel s a /\ tc_words s.
    Definition tc_fits (a : cabs (tstate T F) T) : Prop := 2 * (length (t_log (t_of a)) + 2048) <= max_len + 1.

    Lemma word_tc_yield_eq : forall s : state, oyw (tc_yielder s) -> word_tc_maybe_yield W checked s = tc_maybe_yield s.
    Proof. clear Hmax. intros s H. unfold word_tc_maybe_yield, tc_maybe_yield. now rewrite (proj1 (word_maybe_yield_eq _ H)). Qed.

    Lemma tc_yield_words : forall s s' : state, tc_words s -> tc_maybe_yield s = Ret s' ->
      tc_words s' /\ tc_inner s' = tc_inner s /\ tc_left s' = tc_left s.
    Proof.
      clear Hmax. intros s s' (H1 & H2 & H3). unfold tc_maybe_yield. destruct (maybe_yield (tc_yielder s)) as [y| |] eqn:E1; cbn [bind]; try discriminate.
      intros [= <-]. split; [|split; reflexivity]. split; [exact H1|split; [exact H2|]]. exact (proj2 (word_maybe_yield_eq _ H3) _ E1).
    Qed.

    Lemma tc_check_words : forall (s s' : state) e, tc_words s -> tc_check_error s = Ret (s', e) ->
      tc_words s' /\ tc_inner s' = tc_inner s /\ (e = None -> s' = s /\ 1 <= tc_left s).
    Proof.
      clear Hmax. intros s s' e H. unfold tc_check_error. destruct (Nat.eqb_spec (tc_left s) 0).
      - destruct (expect (tc_error s)); cbn [bind]; try discriminate. intros [= <- <-]. split; [exact H|split; [reflexivity|discriminate]].
      - intros [= <- <-]. split; [exact H|split; [reflexivity|]]. intros _. split; [reflexivity|lia].
    Qed.

    (** What is needed of the state for one call. *)
    Definition tc_room (c : nat) : Prop := 2 * (c + 2048) <= max_len + 1.

    Lemma room_min : forall c n, tc_room c -> 2 * (c + Nat.min 2048 n) <= max_len + 1 /\ 2 * c + 1 <= max_len.
    Proof.
      clear Hmax. intros c n. unfold tc_room. assert (H0 : 1 <= 2048) by (apply le_n_S, Nat.le_0_l). pose proof (Nat.le_min_l 2048 n) as Hm.
      generalize dependent (Nat.min 2048 n). generalize dependent 2048. intros big H0 m Hm H. lia.
    Qed.

    Lemma word_tc_consume_eq : forall x (s : state), tc_words s -> iv_consumed (tc_inner s) <= length (iv_v (tc_inner s)) ->
      tc_room (iv_consumed (tc_inner s)) ->
      word_consumer_consume W checked default max_len x s = test_consumer_consume default x s.
    Proof.
      intros x s H Hc Hr. destruct (room_min 0 Hr) as [_ Hr']. clear Hr.
      unfold word_consumer_consume, test_consumer_consume. rewrite word_tc_yield_eq by apply H.
      destruct (tc_maybe_yield s) as [s1| |] eqn:E1; cbn [bind]; try reflexivity. apply (tc_yield_words H) in E1 as (H1 & Hi & Hl).
      destruct (tc_check_error s1) as [[s2 e]| |] eqn:E2; cbn [bind]; try reflexivity.
      apply (tc_check_words H1) in E2 as (H2 & Hi2 & Hn). destruct e; [reflexivity|]. destruct Hn as [-> Hn]; [reflexivity|]. rewrite Hi.
      unfold word_into_vec_consume, into_vec_consume. rewrite word_make_space_eq by lia. cbn [bind].
      destruct (make_space_len default Hmax (tc_inner s) Hc) as (L1 & L2 & L3). rewrite index_set_ok by lia. cbn [bind].
      rewrite wadd_ok by (destruct H as (H & _); lia). cbn [bind]. rewrite wsub_ok, csub_ok by lia. reflexivity.
    Qed.

    Lemma word_tc_slots_eq : forall n (s : state), tc_words s -> iv_consumed (tc_inner s) + n <= length (iv_v (tc_inner s)) ->
      n <= tc_left s -> word_consumer_consume_slots W checked n s = test_consumer_consume_slots n s.
    Proof.
      intros n s H Hc Hn. unfold word_consumer_consume_slots, test_consumer_consume_slots. rewrite word_tc_yield_eq by apply H.
      destruct (tc_maybe_yield s) as [s1| |] eqn:E1; cbn [bind]; try reflexivity. apply (tc_yield_words H) in E1 as (H1 & Hi & Hl).
      destruct (tc_check_error s1) as [[s2 e]| |] eqn:E2; cbn [bind]; try reflexivity.
      apply (tc_check_words H1) in E2 as (H2 & Hi2 & Hx). destruct e; [reflexivity|]. destruct Hx as [-> Hx]; [reflexivity|].
      unfold word_into_vec_consume_slots, into_vec_consume_slots. rewrite Hi. destruct H as (H & _).
      rewrite wadd_ok by lia. cbn [bind]. rewrite wsub_ok, csub_ok by lia. reflexivity.
    Qed.

    Lemma word_tc_close_eq : forall f (s : state), tc_words s -> word_consumer_close W checked f s = test_consumer_close f s.
    Proof. clear Hmax. intros f s H. unfold word_consumer_close, test_consumer_close. now rewrite word_tc_yield_eq by apply H. Qed.

    Lemma word_tc_flush_eq : forall s : state, tc_words s -> word_consumer_flush W checked s = test_consumer_flush s.
    Proof. clear Hmax. intros s H. unfold word_consumer_flush, test_consumer_flush. now rewrite word_tc_yield_eq by apply H. Qed.

    (** The exposed slots, and the vector afterwards. *)
    Lemma word_tc_slots_of : forall ml (i : into_vec T), iv_consumed i <= length (iv_v i) <= max_len ->
      2 * (iv_consumed i + ml) <= max_len + 1 -> 2 * iv_consumed i + 1 <= max_len ->
      (let* i1 := word_tc_grow W checked default max_len (ml + 1) ml i in word_into_vec_expose W checked default max_len i1) =
        (let* i1 := tc_grow default (ml + 1) ml i in into_vec_expose default i1) /\
      forall i1 i2 r, tc_grow default (ml + 1) ml i = Ret i1 -> into_vec_expose default i1 = Ret (i2, r) ->
        iv_consumed i2 = iv_consumed i /\ iv_consumed i <= length (iv_v i2) <= max_len /\
        forall n, r = Ok n -> n = length (iv_v i2) - iv_consumed i2.
    Proof.
      intros ml i H1 H2 H3. destruct (@word_tc_grow_eq W checked T default max_len Hmax (ml + 1) ml i H1 H2) as [G1 G2]. rewrite G1.
      destruct (tc_grow default (ml + 1) ml i) as [i1| |]; cbn [bind]; (split; [|discriminate]) || idtac; try reflexivity.
      destruct (G2 i1 eq_refl) as [L1 L2]. split.
      - unfold word_into_vec_expose, into_vec_expose. now rewrite word_make_space_eq by lia.
      - intros i0 i2 r [= <-]. unfold into_vec_expose. destruct (make_space_len default Hmax i1 ltac:(lia)) as (M1 & M2 & M3).
        rewrite slice_from_ok by lia. cbn [bind]. intros [= <- <-]. splits; try lia. intros n [= <-]. rewrite skipn_length. lia.
    Qed.

    Lemma word_tc_expose_all : forall s : state, tc_words s -> iv_consumed (tc_inner s) <= length (iv_v (tc_inner s)) ->
      tc_room (iv_consumed (tc_inner s)) ->
      word_consumer_expose W checked default max_len s = test_consumer_expose default s /\
      forall s' r, test_consumer_expose default s = Ret (s', r) ->
        tc_words s' /\ forall n, r = Ok n -> iv_consumed (tc_inner s') + n <= length (iv_v (tc_inner s')) /\ n <= tc_left s'.
    Proof.
      intros s H Hc Hr. unfold word_consumer_expose, test_consumer_expose. rewrite word_tc_yield_eq by apply H.
      destruct (tc_maybe_yield s) as [s1| |] eqn:E1; cbn [bind]; try (split; [reflexivity|discriminate]).
      apply (tc_yield_words H) in E1 as (H1 & Hi & Hl).
      destruct (tc_check_error s1) as [[s2 e]| |] eqn:E2; cbn [bind]; try (split; [reflexivity|discriminate]).
      apply (tc_check_words H1) in E2 as (H2 & Hi2 & Hx).
      destruct e as [e|]; [split; [reflexivity|]; intros s' r [= <- <-]; split; [exact H2|discriminate]|].
      destruct Hx as [-> Hx]; [reflexivity|]. clear H2 Hi2. rewrite Hi in *. destruct H1 as (V1 & V2 & V3). rewrite Hi in V1.
      destruct (tc_sizes s1) as [sz|]; cbn [bind min_opt].
      - rewrite word_next_size_eq by (destruct sz; exact V2).
        destruct (next_size sz) as [[n sz']| |] eqn:E3; cbn [bind]; try (split; [reflexivity|discriminate]). cbn [min_opt].
        pose proof (@szw_next _ _ _ V2 E3) as V2'. destruct (room_min n Hr) as [R1 R2]. generalize dependent (Nat.min 2048 n). intros ml R1.
        destruct (@word_tc_slots_of ml (tc_inner s)) as [G1 G2]; [lia|exact R1|exact R2|].
        revert G1. destruct (word_tc_grow W checked default max_len (ml + 1) ml (tc_inner s)) as [i1| |],
          (tc_grow default (ml + 1) ml (tc_inner s)) as [i1'| |]; cbn [bind]; intros G1.
        + rewrite G1. destruct (into_vec_expose default i1') as [[i2 [m|e]]| |] eqn:E4; cbn [bind]; (split; [reflexivity|]); try discriminate.
          destruct (G2 _ _ _ eq_refl E4) as (L1 & L2 & L3). intros s' r [= <- <-]. split; [split; [|split]; cbn; [lia|exact V2'|exact V3]|].
          intros k [= <-]. cbn. specialize (L3 m eq_refl). lia.
        + rewrite G1. split; [reflexivity|discriminate].
        + rewrite G1. split; [reflexivity|discriminate].
        + rewrite <- G1. split; [reflexivity|]. destruct (into_vec_expose default i1') as [[i2 [m|e]]| |]; discriminate.
        + split; [reflexivity|discriminate].
        + discriminate.
        + rewrite <- G1. split; [reflexivity|]. destruct (into_vec_expose default i1') as [[i2 [m|e]]| |]; discriminate.
        + discriminate.
        + split; [reflexivity|discriminate].
      - assert (Hbig : Nat.min 2048 (W - 1) = 2048 /\ 1 <= 2048).
        { clear - Hr Hmax. unfold tc_room in Hr. assert (H0 : 1 <= 2048) by (apply le_n_S, Nat.le_0_l). revert Hr H0. generalize 2048. intros big Hr H0. lia. }
        destruct Hbig as [-> Hbig]. pose proof (room_min 2048 Hr) as [_ R2]. unfold tc_room in Hr. generalize dependent 2048. intros ml R1 _.
        destruct (@word_tc_slots_of ml (tc_inner s)) as [G1 G2]; [lia|exact R1|exact R2|].
        revert G1. destruct (word_tc_grow W checked default max_len (ml + 1) ml (tc_inner s)) as [i1| |],
          (tc_grow default (ml + 1) ml (tc_inner s)) as [i1'| |]; cbn [bind]; intros G1.
        + rewrite G1. destruct (into_vec_expose default i1') as [[i2 [m|e]]| |] eqn:E4; cbn [bind]; try (split; [reflexivity|discriminate]).
          destruct (G2 _ _ _ eq_refl E4) as (L1 & L2 & L3). specialize (L3 m eq_refl).
          replace (Nat.min m (W - 1)) with m by lia. split; [reflexivity|].
          intros s' r [= <- <-]. split; [split; [|split]; cbn; [lia|exact Logic.I|exact V3]|].
          intros k [= <-]. cbn. lia.
        + rewrite G1. split; [reflexivity|discriminate].
        + rewrite G1. split; [reflexivity|discriminate].
        + rewrite <- G1. split; [reflexivity|]. destruct (into_vec_expose default i1') as [[i2 [m|e]]| |]; discriminate.
        + split; [reflexivity|discriminate].
        + discriminate.
        + rewrite <- G1. split; [reflexivity|]. destruct (into_vec_expose default i1') as [[i2 [m|e]]| |]; discriminate.
        + discriminate.
        + split; [reflexivity|discriminate].
    Qed.

    Lemma tcx_do : forall s a o, tcx s a -> tc_fits a -> c_permitted a o -> c_do C' o s = c_do C o s.
    Proof.
      intros s [a k w|a] o [HR HW] HB HP; [|destruct HP]. unfold tc_fits in HB. cbn [t_of] in HB.
      destruct HR as ((R1 & R2 & R3 & _) & _ & Rl & _ & _ & Rk & _).
      assert (HB' : tc_room (iv_consumed (tc_inner s))) by (unfold tc_room; rewrite R1; exact HB). clear HB.
      destruct o; cbn [c_do c_permitted] in *; cbn.
      - rewrite word_tc_consume_eq; auto. lia.
      - now rewrite word_tc_close_eq.
      - now rewrite word_tc_flush_eq.
      - rewrite (proj1 (@word_tc_expose_all s HW ltac:(lia) HB')). reflexivity.
      - reflexivity.
      - rewrite word_tc_slots_eq; auto; lia.
      - unfold default_bulk_consume. destruct (@word_tc_expose_all s HW ltac:(lia) HB') as [E1 E2]. rewrite E1.
        destruct (test_consumer_expose default s) as [[s1 [n|e]]| |] eqn:E3; cbn [bind]; try reflexivity.
        destruct (E2 _ _ eq_refl) as [W1 W2]. destruct (W2 n eq_refl) as [W3 W4]. destruct W1 as (V1 & V2 & V3).
        assert (HL : length (iv_v (tc_inner (test_consumer_write (firstn (Nat.min n (length buf)) buf) s1))) = length (iv_v (tc_inner s1))).
        { apply length_blit. rewrite firstn_length. lia. }
        rewrite word_tc_slots_eq; [reflexivity|split; [rewrite HL; exact V1|split; [exact V2|exact V3]]|rewrite HL; cbn [test_consumer_write tc_inner into_vec_write iv_consumed]; lia|
          cbn [test_consumer_write tc_left]; lia].
    Qed.

    Lemma tc_slots_words : forall n (s s' : state) r, tc_words s -> test_consumer_consume_slots n s = Ret (s', r) -> tc_words s'.
    Proof.
      clear Hmax. intros n s s' r H. unfold test_consumer_consume_slots.
      destruct (tc_maybe_yield s) as [s1| |] eqn:E1; cbn [bind]; try discriminate. apply (tc_yield_words H) in E1 as (H1 & _ & _).
      destruct (tc_check_error s1) as [[s2 e]| |] eqn:E2; cbn [bind]; try discriminate.
      apply (tc_check_words H1) in E2 as (H2 & _ & _). destruct e; [now intros [= <- _]|].
      destruct (csub (tc_left s2) n); cbn [bind]; try discriminate. now intros [= <- _].
    Qed.

    Lemma tc_do_words : forall s a o s' r, tcx s a -> tc_fits a -> c_permitted a o -> c_do C o s = Ret (s', r) -> tc_words s'.
    Proof.
      intros s [a k w|a] o s' r [HR H] HB HP; [|destruct HP]. unfold tc_fits in HB. cbn [t_of] in HB.
      destruct HR as ((R1 & R2 & R3 & _) & _ & Rl & _ & _ & Rk & _).
      assert (HB' : tc_room (iv_consumed (tc_inner s))) by (unfold tc_room; rewrite R1; exact HB). clear HB.
      destruct (room_min 0 HB') as [_ Hr].
      destruct o; cbn [c_do c_permitted] in *; cbn.
      - unfold test_consumer_consume.
        destruct (tc_maybe_yield s) as [s1| |] eqn:E1; cbn [bind]; try discriminate. apply (tc_yield_words H) in E1 as (H1 & Hi & _).
        destruct (tc_check_error s1) as [[s2 e]| |] eqn:E2; cbn [bind]; try discriminate.
        apply (tc_check_words H1) in E2 as (H2 & Hi2 & _). destruct e; [now intros [= <- _]|].
        rewrite Hi2, Hi. unfold into_vec_consume. destruct (make_space_len default Hmax (tc_inner s) ltac:(lia)) as (L1 & L2 & L3).
        rewrite index_set_ok by lia. cbn [bind]. destruct (csub (tc_left s2) 1); cbn [bind]; try discriminate. intros [= <- _].
        destruct H2 as (_ & V2 & V3). destruct H as (V1 & _). split; [|split; [exact V2|exact V3]].
        cbn [tc_inner iv_v]. rewrite length_blit by (cbn; lia). lia.
      - unfold test_consumer_close.
        destruct (tc_maybe_yield s) as [s1| |] eqn:E1; cbn [bind]; try discriminate. apply (tc_yield_words H) in E1 as (H1 & Hi & _).
        destruct (tc_check_error s1) as [[s2 e]| |] eqn:E2; cbn [bind]; try discriminate.
        apply (tc_check_words H1) in E2 as (H2 & _ & _). destruct e; now intros [= <- _].
      - unfold test_consumer_flush.
        destruct (tc_maybe_yield s) as [s1| |] eqn:E1; cbn [bind]; try discriminate. apply (tc_yield_words H) in E1 as (H1 & Hi & _).
        destruct (tc_check_error s1) as [[s2 e]| |] eqn:E2; cbn [bind]; try discriminate.
        apply (tc_check_words H1) in E2 as (H2 & _ & _). destruct e; now intros [= <- _].
      - destruct (@word_tc_expose_all s H ltac:(lia) HB') as [_ E2].
        destruct (test_consumer_expose default s) as [[s1 r1]| |]; cbn [bind]; try discriminate. intros [= <- _].
        exact (proj1 (E2 _ _ eq_refl)).
      - intros [= <- _]. destruct H as (V1 & V2 & V3). split; [|split; [exact V2|exact V3]].
        cbn [test_consumer_write tc_inner into_vec_write iv_v]. rewrite length_blit by lia. exact V1.
      - destruct (test_consumer_consume_slots n s) as [[s1 r1]| |] eqn:E1; cbn [bind]; try discriminate. intros [= <- _].
        exact (tc_slots_words _ H E1).
      - unfold default_bulk_consume. destruct (@word_tc_expose_all s H ltac:(lia) HB') as [_ E2].
        destruct (test_consumer_expose default s) as [[s1 [n|e]]| |]; cbn [bind]; try discriminate;
          destruct (E2 _ _ eq_refl) as [W1 W2]; [|intros [= <- _]; exact W1].
        destruct (W2 n eq_refl) as [W3 W4]. destruct W1 as (V1 & V2 & V3).
        assert (HX : tc_words (test_consumer_write (firstn (Nat.min n (length buf)) buf) s1)).
        { split; [|split; [exact V2|exact V3]]. cbn [test_consumer_write tc_inner into_vec_write iv_v].
          rewrite length_blit by (rewrite firstn_length; lia). exact V1. }
        destruct (test_consumer_consume_slots _ _) as [[s2 r2]| |] eqn:E3; cbn [bind]; try discriminate.
        pose proof (tc_slots_words _ HX E3) as HY. destruct r2 as [[]|]; cbn [bind]; intros [= <- _]; exact HY.
    Qed.

    Lemma tcx_step : forall s a o s' r a', tcx s a -> tc_fits a -> c_permitted a o -> c_do C o s = Ret (s', r) -> c_answer M a o r a' -> tcx s' a'.
    Proof.
      intros s a o s' r a' HX HB HP HD HA. split; [|exact (@tc_do_words _ _ _ _ _ HX HB HP HD)]. destruct HX as [HR _].
      destruct (@lawful_c_step _ _ _ _ _ C M (tc_rel error) (tc_end error) o s a (test_consumer_lawful default error) HR HP) as (s1 & r1 & a1 & E1 & HA1 & HR1).
      rewrite HD in E1. injection E1 as <- <-. now rewrite (c_answer_det default _ _ _ _ _ HA HA1).
    Qed.

    Lemma failing_feed_log : forall xs (a : tstate T F), length (t_log a) <= length (t_log (fst (fst (m_feed M xs a)))).
    Proof.
      clear Hmax. induction xs as [|x xs IH]; intros a; [cbn; lia|]. cbn [m_feed]. cbn [m_step failing_machine].
      destruct (t_left a) as [|n]; [cbn; lia|]. cbn.
      match goal with |- context [m_feed _ xs ?b] => specialize (IH b); destruct (m_feed M xs b) as [[a1 m] e] end. cbn in *.
      rewrite app_length in IH. lia.
    Qed.

    Lemma tc_log_grows : forall a o r a', c_permitted a o -> c_answer M a o r a' -> length (t_log (t_of a)) <= length (t_log (t_of a')).
    Proof.
      clear Hmax. intros [a k w|a] o r a' HP HA; [|destruct HP].
      destruct o; destruct r; cbn in HA; try contradiction.
      - destruct HA as [_ ->]. destruct (t_left a); cbn; [|rewrite app_length]; lia.
      - destruct HA as [_ ->]. destruct (t_left a); cbn; lia.
      - destruct HA as [_ ->]. destruct (t_left a); cbn; lia.
      - destruct HA as [(n & _ & _ & ->)|(e & a1 & HX & _ & ->)]; [cbn; lia|]. specialize (HX default). cbn in HX. destruct (t_left a); [|discriminate].
        injection HX as <- _. cbn. lia.
      - subst a'. cbn. lia.
      - pose proof (failing_feed_log (firstn n w) a) as HF. destruct (m_feed M (firstn n w) a) as [[a1 m] [e|]]; destruct HA as [_ ->]; exact HF.
      - destruct HA as [(n & a1 & _ & HF & _ & ->)|(n & e & a1 & HF & _ & ->)]; cbn.
        + pose proof (failing_feed_log (firstn n buf) a) as HG. rewrite HF in HG. exact HG.
        + pose proof (failing_feed_log buf a) as HG. rewrite HF in HG. exact HG.
    Qed.

    Lemma tc_fits_back : forall a o r a', c_permitted a o -> c_answer M a o r a' -> tc_fits a' -> tc_fits a.
    Proof.
      clear Hmax. intros a o r a' HP HA. pose proof (tc_log_grows _ _ _ _ HP HA). unfold tc_fits. generalize 2048. intros big H1. lia.
    Qed.

    Lemma word_consumer_history : forall h s a s' a', tcx s a -> tc_fits a' -> (c_history C' M s a h s' a' <-> c_history C M s a h s' a').
    Proof.
      intros h s a s' a' HX HB. apply (@c_agree _ _ _ _ _ C C' M tcx tc_fits tc_fits_back tcx_do tcx_step); [exact HX|exact HB].
    Qed.

    Lemma word_consumer_reach : forall h s a s' a', c_history C' M s a h s' a' -> tcx s a -> tc_fits a' -> tcx s' a'.
    Proof.
      intros h s a s' a' HH. induction HH as [s0 a0|s a o s1 r a1 h s2 a2 HP HD HA HH IH]; intros HI HB; [exact HI|].
      assert (Ha1 : tc_fits a1).
      { clear - HH HB default. induction HH as [s0 a0|s a o s1 r a1 h s2 a2 HP HD HA HH IH]; [exact HB|]. apply (@tc_fits_back _ _ _ _ HP HA). auto. }
      pose proof (@tc_fits_back _ _ _ _ HP HA Ha1) as Ha. rewrite (@tcx_do _ _ _ HI Ha HP) in HD. apply IH; [|exact HB].
      exact (@tcx_step _ _ _ _ _ _ HI Ha HP HD HA).
    Qed.

    Lemma word_consumer_next : forall h s a s' a' o, c_history C' M s a h s' a' -> tcx s a -> tc_fits a' -> c_permitted a' o ->
      exists s1 r a1, c_do C' o s' = Ret (s1, r) /\ c_answer M a' o r a1.
    Proof.
      intros h s a s' a' o HH HI HB HP. pose proof (word_consumer_reach HH HI HB) as HI'. rewrite (@tcx_do _ _ _ HI' HB HP).
      destruct (@lawful_c_step _ _ _ _ _ C M (tc_rel error) (tc_end error) o s' a' (test_consumer_lawful default error) (proj1 HI') HP) as (s1 & r1 & a1 & E1 & HA1 & _).
      eauto.
    Qed.

    Lemma builder_szw : forall sizes, match sizes with Some l => length l < W | None => True end ->
      szw (match sizes with Some l => match builder_sizes l with Some l => Some (l, 0) | None => None end | None => None end).
    Proof. clear Hmax. intros [l|] H; [|exact Logic.I]. unfold builder_sizes. destruct (0 <? length l); [exact H|exact Logic.I]. Qed.

    Lemma builder_oyw : forall pattern, match pattern with Some p => length p + 1 < W | None => True end ->
      oyw (match pattern with Some p => Some (yielder_new (builder_yield_pattern p)) | None => None end).
    Proof.
      clear Hmax. intros [p|] H; [|exact Logic.I]. cbn. unfold yielder_new, builder_yield_pattern.
      destruct (forallb (fun b => b) p) eqn:E1; [|rewrite E1; cbn; lia]. rewrite forallb_app, E1. cbn. rewrite app_length. cbn. lia.
    Qed.

    Lemma tcx_build : forall n sizes pattern,
      match sizes with Some l => Forall (fun n => 1 <= n) l /\ length l < W | None => True end ->
      match pattern with Some p => length p + 1 < W | None => True end ->
      tcx (test_consumer_build error n sizes pattern) (CActive (mk_tstate [] None n false) 0 []).
    Proof.
      clear Hmax. intros n sizes pattern H1 H2. split.
      - apply tc_rel_build. destruct sizes; [exact (proj1 H1)|exact Logic.I].
      - split; [apply Nat.le_0_l|split; [apply builder_szw; destruct sizes; [exact (proj2 H1)|exact Logic.I]|apply builder_oyw; exact H2]].
    Qed.
  End TestConsumer.

  Lemma tpw_build : forall T F E (items : list T) (last : res F E) sizes pattern, length items < W ->
    match sizes with Some l => Forall (fun n => 1 <= n) l /\ length l < W | None => True end ->
    match pattern with Some p => length p + 1 < W | None => True end ->
    tpw (test_producer_build items last sizes pattern) (PActive items last 0).
  Proof.
    intros T F E items last sizes pattern H0 H1 H2. split.
    - apply tp_rel_build. destruct sizes; [exact (proj1 H1)|exact Logic.I].
    - split; [exact H0|split; [apply builder_szw; destruct sizes; [exact (proj2 H1)|exact Logic.I]|apply builder_oyw; exact H2]].
  Qed.
End Words.

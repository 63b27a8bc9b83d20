(** Proofs about the basic producers and consumers. *)
From Coq Require Import Bool List Arith Lia.
From Verif Require Import Prelude ListFacts Traits Contracts ContractFacts BasicModel BasicSpec.
Import ListNotations.
Set Implicit Arguments.

(** ** FromSlice *)
Section FromSlice.
  Context {T : Type}.

  Definition fs_rel (s : from_slice T) (xs : list T) (l : res unit infallible) (k : nat) : Prop :=
    fs_offset s <= length (fs_slice s) /\ xs = skipn (fs_offset s) (fs_slice s) /\ l = Ok tt /\ k <= length xs.

  Definition fs_end (s : from_slice T) : Prop := fs_offset s = length (fs_slice s).

  Lemma fs_rel_new : forall l, fs_rel (from_slice_new l) l (Ok tt) 0.
  Proof. intros l. unfold fs_rel; cbn. splits; auto; lia. Qed.

  Lemma from_slice_core : lawful_producer_core (@from_slice_producer T) fs_rel fs_end.
  Proof.
    constructor; unfold fs_rel, fs_end.
    - tauto.
    - intros s xs l k (H1 & H2 & H3 & H4). splits; auto. lia.
    - intros [v o] x xs l k (H1 & H2 & H3 & H4); cbn in *. unfold from_slice_produce; cbn.
      assert (Hl : length (x :: xs) = length v - o) by (rewrite H2; apply skipn_length). cbn in Hl, H4.
      destruct (Nat.eqb_spec (length v) o); [lia|].
      assert (Hn : nth_error v o = Some x).
      { rewrite <- (Nat.add_0_r o), <- nth_error_skipn, <- H2. reflexivity. }
      unfold index. rewrite Hn. cbn [bind]. eexists; split; [reflexivity|]. cbn. splits; auto; try lia.
      rewrite <- skipn_skipn, <- H2. reflexivity.
    - intros [v o] l k (H1 & H2 & -> & H4); cbn in *. unfold from_slice_produce; cbn.
      assert (Hl : length (@nil T) = length v - o) by (rewrite H2; apply skipn_length). cbn in Hl.
      destruct (Nat.eqb_spec (length v) o); [|lia]. eexists; split; [reflexivity|]. cbn. lia.
    - intros [v o] xs l k (H1 & H2 & -> & H4) Hne; cbn in *. unfold from_slice_expose; cbn.
      rewrite slice_from_ok by lia. cbn [bind]. rewrite <- H2.
      exists (mk_from_slice v o), xs, []. splits; auto; try lia.
      + destruct xs; [congruence|reflexivity].
      + now rewrite app_nil_r.
    - intros [v o] l k (H1 & H2 & -> & H4); cbn in *. unfold from_slice_expose; cbn.
      rewrite slice_from_ok by lia. cbn [bind]. rewrite <- H2.
      assert (Hl : length (@nil T) = length v - o) by (rewrite H2; apply skipn_length). cbn in Hl.
      eexists; split; [reflexivity|]. cbn. lia.
    - intros [v o] xs l k n (H1 & H2 & -> & H4) Hk Hn; cbn in *. unfold from_slice_consider; cbn.
      assert (Hl : length xs = length v - o) by (rewrite H2; apply skipn_length).
      eexists; split; [reflexivity|]. cbn. splits; auto; try lia.
      + now rewrite H2, skipn_skipn.
      + rewrite skipn_length. lia.
  Qed.

  Lemma from_slice_lawful : lawful_producer (@from_slice_producer T) fs_rel fs_end.
  Proof. apply default_lawful_producer; [apply from_slice_core|reflexivity]. Qed.

  Lemma from_slice_slurp_lawful : lawful_slurp (@from_slice_producer T) fs_rel fs_end.
  Proof. intros s xs l k H. left. exists s. split; auto. Qed.

  Lemma fs_rel_accessors : forall s xs l k, fs_rel s xs l k ->
    exists done, from_slice_produced_so_far s = Ret done /\ from_slice_not_yet_produced s = Ret xs /\
      length done = fs_offset s /\ done ++ xs = fs_slice s.
  Proof.
    intros s xs l k (H1 & H2 & H3 & H4). exists (firstn (fs_offset s) (fs_slice s)).
    unfold from_slice_produced_so_far, from_slice_not_yet_produced.
    rewrite slice_to_ok, slice_from_ok by lia. splits; auto.
    - now rewrite H2.
    - rewrite firstn_length. lia.
    - rewrite H2. apply firstn_skipn.
  Qed.

  (** The slice is never modified. *)
  Lemma from_slice_keeps : forall o s s' r, p_do (@from_slice_producer T) o s = Ret (s', r) -> fs_slice s' = fs_slice s.
  Proof.
    intros o [v n] s' r H. destruct o; cbn in H;
      unfold default_bulk_produce, from_slice_produce, from_slice_slurp, from_slice_expose, from_slice_consider in H; cbn in H;
      repeat (match goal with
      | H : context [if ?b then _ else _] |- _ => destruct b
      | H : context [bind (index ?a ?b) _] |- _ => destruct (index a b)
      | H : context [bind (slice_from ?a ?b) _] |- _ => destruct (slice_from a b) as [[|]| |]
      end; cbn in H); try discriminate; injection H as <- _; reflexivity.
  Qed.
End FromSlice.

(** ** Empty *)
Section Empty.
  Context {T F E : Type}.

  Definition empty_rel (s : option F) (xs : list T) (l : res F E) (k : nat) : Prop :=
    xs = [] /\ k = 0 /\ exists f, s = Some f /\ l = Ok f.
  Definition empty_end (s : option F) : Prop := s = None.

  Lemma empty_core : lawful_producer_core (@empty_producer T F E) empty_rel empty_end.
  Proof.
    constructor; unfold empty_rel, empty_end.
    - intros s xs l k (-> & -> & _). auto.
    - intros s xs l k (-> & -> & H). auto.
    - intros s x xs l k (H & _). discriminate.
    - intros s l k (_ & -> & f & -> & ->). eexists; split; reflexivity.
    - intros s xs l k (-> & _) H. congruence.
    - intros s l k (_ & -> & f & -> & ->). eexists; split; reflexivity.
    - intros s xs l k n (-> & -> & _) H. lia.
  Qed.

  Lemma empty_lawful : lawful_producer (@empty_producer T F E) empty_rel empty_end.
  Proof. apply default_lawful_producer; [apply empty_core|reflexivity]. Qed.

  Lemma empty_slurp_lawful : lawful_slurp (@empty_producer T F E) empty_rel empty_end.
  Proof. intros s xs l k H. left. exists s. split; auto. Qed.
End Empty.

(** ** IntoVec *)
Section IntoVec.
  Context {T : Type} (default : T).

  Definition iv_rel (s : into_vec T) (log : list T) (k : nat) (w : list T) : Prop :=
    iv_consumed s = length log /\ length log + k <= length (iv_v s) /\ length w <= k /\
    firstn (length log + length w) (iv_v s) = log ++ w.

  Definition iv_end (s : into_vec T) (log : list T) : Prop := iv_rel s log 0 [].

  Lemma length_resize : forall n (v : list T), length (resize_default default n v) = n.
  Proof.
    intros n v. unfold resize_default. rewrite app_length, firstn_length, repeat_length. lia.
  Qed.

  Lemma firstn_resize : forall n m (v : list T), m <= n -> m <= length v -> firstn m (resize_default default n v) = firstn m v.
  Proof.
    intros n m v H1 H2. unfold resize_default.
    rewrite firstn_app, firstn_firstn, Nat.min_l, firstn_length by lia.
    replace (m - Nat.min n (length v)) with 0 by lia. cbn. apply app_nil_r.
  Qed.

  (** Growing keeps everything and makes room. *)
  Lemma iv_rel_resize : forall s log k w n, iv_rel s log k w -> length (iv_v s) <= n ->
    iv_rel (mk_into_vec (resize_default default n (iv_v s)) (iv_consumed s)) log k w.
  Proof.
    intros [v c] log k w n (H1 & H2 & H3 & H4) Hn; cbn in *. unfold iv_rel; cbn. rewrite length_resize.
    splits; auto; try lia. rewrite firstn_resize by lia. exact H4.
  Qed.

  Lemma iv_rel_forget : forall s log k w, iv_rel s log k w -> iv_rel s log 0 [].
  Proof.
    intros s log k w (H1 & H2 & H3 & H4). unfold iv_rel. splits; auto; cbn; try lia.
    rewrite Nat.add_0_r, app_nil_r. rewrite <- (Nat.min_l (length log) (length log + length w)) by lia.
    rewrite <- firstn_firstn, H4. rewrite firstn_app, firstn_all, Nat.sub_diag. cbn. apply app_nil_r.
  Qed.

  Lemma iv_make_space : forall s log k w, iv_rel s log k w ->
    iv_rel (into_vec_make_space_if_needed default s) log 0 [] /\
    length log < length (iv_v (into_vec_make_space_if_needed default s)).
  Proof.
    intros s log k w H. apply iv_rel_forget in H. pose proof H as (H1 & H2 & H3 & H4).
    unfold into_vec_make_space_if_needed. destruct (Nat.eqb_spec (iv_consumed s) (length (iv_v s))).
    - split; [apply iv_rel_resize; auto; lia|]. cbn. rewrite length_resize. lia.
    - split; auto. lia.
  Qed.

  Lemma iv_consume_ok : forall s log k w x, iv_rel s log k w ->
    exists s', into_vec_consume default x s = Ret (s', Ok tt) /\ iv_rel s' (log ++ [x]) 0 [].
  Proof.
    intros s log k w x H. apply iv_make_space in H as [(H1 & H2 & H3 & H4) Hl].
    unfold into_vec_consume. set (s1 := into_vec_make_space_if_needed default s) in *.
    rewrite index_set_ok by lia. cbn [bind]. eexists; split; [reflexivity|].
    unfold iv_rel; cbn [iv_v iv_consumed]. rewrite app_length, length_blit; cbn [length]; try lia. splits; auto; try lia.
    cbn in H4. rewrite Nat.add_0_r, app_nil_r in *. rewrite H1. unfold blit. rewrite H4.
    cbn [app length]. replace (length log + 1) with (length (log ++ [x])) by (rewrite app_length; reflexivity).
    change (log ++ x :: skipn (length (log ++ [x])) (iv_v s1)) with (log ++ [x] ++ skipn (length (log ++ [x])) (iv_v s1)).
    rewrite app_assoc, firstn_app, firstn_all, Nat.sub_diag. cbn. apply app_nil_r.
  Qed.

  Lemma iv_expose_ok : forall s log k w, iv_rel s log k w ->
    exists s' n, into_vec_expose default s = Ret (s', Ok n) /\ 1 <= n /\ n = length (iv_v s') - length log /\
      s' = into_vec_make_space_if_needed default s /\ iv_rel s' log n [].
  Proof.
    intros s log k w H. apply iv_make_space in H as [(H1 & H2 & H3 & H4) Hl].
    unfold into_vec_expose. set (s1 := into_vec_make_space_if_needed default s) in *.
    rewrite slice_from_ok by lia. cbn [bind]. do 2 eexists; split; [reflexivity|].
    rewrite skipn_length, H1. splits; auto; try lia.
    unfold iv_rel. splits; auto; cbn; lia.
  Qed.

  Lemma iv_write_ok : forall s log k w ys, iv_rel s log k w -> length ys <= k ->
    iv_rel (into_vec_write ys s) log k (overlay ys w).
  Proof.
    intros [v c] log k w ys (H1 & H2 & H3 & H4) Hy; cbn in *. subst c.
    unfold iv_rel, into_vec_write; cbn [iv_v iv_consumed]. rewrite length_blit by lia. rewrite length_overlay_max.
    splits; auto; try lia.
    apply list_ext; intros i.
    destruct (lt_dec i (length log + Nat.max (length ys) (length w))) as [Hi|Hi].
    2:{ rewrite nth_error_firstn_ge by lia. symmetry. apply nth_error_None. rewrite app_length, length_overlay_max. lia. }
    rewrite nth_error_firstn, nth_error_blit by lia. unfold overlay.
    destruct (lt_dec i (length log)) as [Hl|Hl].
    - rewrite nth_error_app1 by lia.
      replace ((length log <=? i) && (i <? length log + length ys)) with false
        by (symmetry; apply andb_false_iff; left; apply Nat.leb_gt; lia).
      assert (Hg : nth_error (firstn (length log + length w) v) i = nth_error (log ++ w) i) by now rewrite H4.
      rewrite nth_error_firstn, nth_error_app1 in Hg by lia. exact Hg.
    - rewrite nth_error_app2 by lia. destruct (lt_dec (i - length log) (length ys)) as [Hy1|Hy1].
      + replace ((length log <=? i) && (i <? length log + length ys)) with true
          by (symmetry; apply andb_true_iff; split; [apply Nat.leb_le|apply Nat.ltb_lt]; lia).
        now rewrite nth_error_app1 by lia.
      + replace ((length log <=? i) && (i <? length log + length ys)) with false
          by (symmetry; apply andb_false_iff; right; apply Nat.ltb_ge; lia).
        rewrite nth_error_app2 by lia. rewrite nth_error_skipn.
        replace (length ys + (i - length log - length ys)) with (i - length log) by lia.
        assert (Hg : nth_error (firstn (length log + length w) v) i = nth_error (log ++ w) i) by now rewrite H4.
        rewrite nth_error_firstn, nth_error_app2 in Hg by lia. exact Hg.
  Qed.

  Lemma iv_consume_slots_ok : forall s log k w n, iv_rel s log k w -> n <= length w ->
    exists s', into_vec_consume_slots n s = Ret (s', Ok tt) /\ iv_rel s' (log ++ firstn n w) (k - n) (skipn n w).
  Proof.
    intros [v c] log k w n (H1 & H2 & H3 & H4) Hn; cbn in *. eexists; split; [reflexivity|].
    unfold iv_rel; cbn. rewrite app_length, firstn_length, Nat.min_l, skipn_length by lia.
    splits; try lia. rewrite <- app_assoc, firstn_skipn.
    replace (length log + n + (length w - n)) with (length log + length w) by lia. exact H4.
  Qed.

  Lemma collect_feed : forall F E xs log,
    m_feed (collect_machine T F E) xs log = (log ++ xs, length xs, None).
  Proof.
    induction xs as [|x xs IH]; intros log; cbn; [now rewrite app_nil_r|].
    rewrite IH, <- app_assoc. reflexivity.
  Qed.

  Lemma into_vec_core : lawful_consumer_core (into_vec_consumer default) (collect_machine T unit infallible) iv_rel iv_end.
  Proof.
    constructor.
    - intros s a k w (H1 & H2 & H3 & H4). exact H3.
    - intros s a k w H. exact (iv_rel_forget H).
    - intros s a k w x H. exact (iv_consume_ok x H).
    - intros s a k w f H. exists s. split; [reflexivity|]. exact (iv_rel_forget H).
    - intros s a k w H. exists s. split; [reflexivity|exact H].
    - intros s a k w H. left. destruct (iv_expose_ok H) as (s' & n & E1 & Hn & _ & _ & HR). exists s', n. auto.
    - intros s a k w ys H Hy. exact (iv_write_ok ys H Hy).
    - intros s a k w n H Hk Hn. rewrite collect_feed. exact (iv_consume_slots_ok H Hn).
  Qed.

  Lemma into_vec_lawful : lawful_consumer (into_vec_consumer default) (collect_machine T unit infallible) iv_rel iv_end.
  Proof. apply default_lawful_consumer; [apply into_vec_core|reflexivity]. Qed.

  Lemma iv_rel_from_vec : forall v, iv_rel (into_vec_from_vec v) v 0 [].
  Proof. intros v. unfold iv_rel; cbn. splits; auto; try lia. now rewrite Nat.add_0_r, firstn_all, app_nil_r. Qed.

  Lemma iv_rel_read : forall s log k w, iv_rel s log k w ->
    into_vec_as_ref s = Ret log /\ into_vec_into_vec s = log.
  Proof.
    intros s log k w H. apply iv_rel_forget in H as (H1 & H2 & H3 & H4). cbn in *.
    unfold into_vec_as_ref, into_vec_into_vec. rewrite slice_to_ok by lia. rewrite H1.
    rewrite Nat.add_0_r, app_nil_r in H4. now rewrite H4.
  Qed.
End IntoVec.

(** ** TestYielder *)
Section Yielder.
  Definition y_ok (y : yielder) : Prop := y_index y < length (y_pattern y) /\ In false (y_pattern y).

  Lemma effective_forallb : forall p,
    (if forallb (fun b => b) p then p ++ [false] else p) = effective_pattern p.
  Proof.
    intros p. unfold effective_pattern.
    assert (H : forallb (fun b => b) p = negb (existsb negb p)).
    { induction p as [|[] p IH]; cbn; auto. }
    rewrite H. destruct (existsb negb p); reflexivity.
  Qed.

  Lemma effective_idem : forall p, effective_pattern (effective_pattern p) = effective_pattern p.
  Proof.
    intros p. unfold effective_pattern. destruct (existsb negb p) eqn:E; [now rewrite E|].
    rewrite existsb_app, E. reflexivity.
  Qed.

  Lemma effective_false : forall p, In false (effective_pattern p).
  Proof.
    intros p. unfold effective_pattern. destruct (existsb negb p) eqn:E.
    - apply existsb_exists in E as ([] & H1 & H2); [discriminate|exact H1].
    - apply in_or_app. right. now left.
  Qed.

  Lemma yielder_new_pattern : forall p, yielder_new p = mk_yielder (effective_pattern p) 0.
  Proof. intros p. unfold yielder_new. rewrite <- effective_forallb. destruct (forallb (fun b => b) p); reflexivity. Qed.

  Lemma yielder_new_ok : forall p, y_ok (yielder_new p).
  Proof.
    intros p. rewrite yielder_new_pattern. pose proof (effective_false p) as H. split; cbn; auto.
    destruct (effective_pattern p); [destruct H|cbn; lia].
  Qed.

  Lemma poll_ok : forall y, y_index y < length (y_pattern y) ->
    yielder_poll y = Ret (mk_yielder (y_pattern y) ((y_index y + 1) mod length (y_pattern y)),
                          negb (nth (y_index y) (y_pattern y) true)).
  Proof.
    intros [p i] H; cbn in *. unfold yielder_poll; cbn. unfold index.
    destruct (nth_error p i) as [b|] eqn:E; [|apply nth_error_None in E; lia].
    cbn [bind]. rewrite cmod_ok by lia. cbn [bind]. now rewrite (nth_error_nth _ _ _ E).
  Qed.

  Lemma poll_trace_ok : forall n p i, i < length p ->
    poll_trace n (mk_yielder p i) =
      Ret (mk_yielder p ((i + n) mod length p), map (fun j => negb (cycle true p (i + j))) (seq 0 n)).
  Proof.
    induction n as [|n IH]; intros p i Hi; cbn [poll_trace].
    - rewrite Nat.add_0_r, Nat.mod_small by lia. reflexivity.
    - rewrite poll_ok by (cbn; lia). cbn [bind y_pattern y_index].
      rewrite IH by (apply Nat.mod_upper_bound; lia). cbn [bind]. do 2 f_equal.
      + f_equal. rewrite Nat.add_mod_idemp_l by lia. f_equal. lia.
      + cbn [seq map]. f_equal.
        * unfold cycle. rewrite Nat.add_0_r, Nat.mod_small by lia. reflexivity.
        * rewrite <- seq_shift, map_map. apply map_ext. intros j. unfold cycle.
          rewrite Nat.add_mod_idemp_l by lia. do 3 f_equal. lia.
  Qed.

  (** A poll that is ready comes within the length of the pattern. *)
  Lemma cycle_finds : forall p i, i < length p -> In false p ->
    exists j, j < length p /\ cycle true p (i + j) = false /\ forall j', j' < j -> cycle true p (i + j') = true.
  Proof.
    intros p i Hi Hin.
    assert (H : exists j, j < length p /\ cycle true p (i + j) = false).
    { apply (In_nth _ _ true) in Hin as (m & Hm & Hv).
      exists ((m + length p - i) mod length p). split; [apply Nat.mod_upper_bound; lia|].
      unfold cycle. rewrite Nat.add_mod_idemp_r by lia.
      replace (i + (m + length p - i)) with (m + 1 * length p) by lia.
      rewrite Nat.mod_add, Nat.mod_small by lia. exact Hv. }
    destruct H as (j & Hj & Hv). clear Hin. revert Hj Hv. induction j as [j IH] using lt_wf_ind; intros Hj Hv.
    destruct (existsb (fun j' => negb (cycle true p (i + j'))) (seq 0 j)) eqn:E.
    - apply existsb_exists in E as (j' & H1 & H2). apply in_seq in H1. apply (IH j'); try lia.
      now apply negb_true_iff in H2.
    - exists j. splits; auto. intros j' Hj'. destruct (cycle true p (i + j')) eqn:E2; auto.
      assert (existsb (fun j' => negb (cycle true p (i + j'))) (seq 0 j) = true); [|congruence].
      apply existsb_exists. exists j'. split; [apply in_seq; lia|now rewrite E2].
  Qed.

  Lemma await_ok : forall n p i fuel, i < length p -> n < fuel ->
    cycle true p (i + n) = false -> (forall j, j < n -> cycle true p (i + j) = true) ->
    yielder_await fuel (mk_yielder p i) = Ret (mk_yielder p ((i + n + 1) mod length p)).
  Proof.
    induction n as [|n IH]; intros p i [|fuel] Hi Hf Hv Hb; try lia; cbn [yielder_await];
      rewrite poll_ok by (cbn; lia); cbn [bind y_pattern y_index].
    - assert (nth i p true = false) as ->.
      { unfold cycle in Hv. rewrite Nat.add_0_r, Nat.mod_small in Hv by lia. exact Hv. }
      cbn. now rewrite Nat.add_0_r.
    - assert (nth i p true = true) as ->.
      { specialize (Hb 0 ltac:(lia)). unfold cycle in Hb. rewrite Nat.add_0_r, Nat.mod_small in Hb by lia. exact Hb. }
      cbn [negb]. assert (Hc : forall j, cycle true p ((i + 1) mod length p + j) = cycle true p (i + S j)).
      { intros j. unfold cycle. rewrite Nat.add_mod_idemp_l by lia.
        now replace (i + 1 + j) with (i + S j) by lia. }
      rewrite IH; try lia.
      + rewrite <- Nat.add_assoc, Nat.add_mod_idemp_l by lia.
        now replace (i + 1 + (n + 1)) with (i + S n + 1) by lia.
      + apply Nat.mod_upper_bound. lia.
      + now rewrite Hc.
      + intros j Hj. rewrite Hc. apply Hb. lia.
  Qed.

  Lemma await_total : forall y, y_ok y ->
    exists n y', n < length (y_pattern y) /\
      yielder_await (length (y_pattern y)) y = Ret y' /\ y_ok y' /\ y_pattern y' = y_pattern y /\
      poll_trace (n + 1) y = Ret (y', repeat false n ++ [true]).
  Proof.
    intros [p i] [Hi Hin]; cbn in *.
    destruct (cycle_finds p Hi Hin) as (n & Hn & Hv & Hb).
    exists n. eexists. splits; [exact Hn|exact (await_ok p Hi Hn Hv Hb)| |reflexivity|].
    - split; cbn; auto. apply Nat.mod_upper_bound. lia.
    - rewrite poll_trace_ok by lia. rewrite Nat.add_assoc. do 2 f_equal.
      rewrite seq_app, map_app. cbn. rewrite Hv. f_equal.
      clear Hv Hn. induction n as [|n IH]; [reflexivity|].
      rewrite seq_S, map_app, IH by (intros; apply Hb; lia). cbn. rewrite Hb by lia.
      cbn. now rewrite repeat_cons.
  Qed.
  Global Arguments await_total {y} _.

  Definition oy_ok (y : option yielder) : Prop := match y with Some y => y_ok y | None => True end.

  Lemma maybe_yield_ok : forall y, oy_ok y -> exists y', maybe_yield y = Ret y' /\ oy_ok y'.
  Proof.
    intros [y|] H; cbn; [|exists None; auto].
    destruct (await_total H) as (n & y' & _ & E & Hy & _). rewrite E. cbn. exists (Some y'). auto.
  Qed.
  Global Arguments maybe_yield_ok {y} _.
End Yielder.

(** ** Cycling sizes *)
Definition sz_ok (sz : option (list nat * nat)) : Prop :=
  match sz with Some (l, i) => i < length l /\ Forall (fun n => 1 <= n) l | None => True end.

Lemma next_size_ok : forall l i, i < length l -> Forall (fun n => 1 <= n) l ->
  next_size (l, i) = Ret (nth i l 1, (l, (i + 1) mod length l)) /\ 1 <= nth i l 1 /\
  sz_ok (Some (l, (i + 1) mod length l)).
Proof.
  intros l i Hi Hl. unfold next_size, index; cbn.
  destruct (nth_error l i) as [n|] eqn:E; [|apply nth_error_None in E; lia].
  cbn [bind]. rewrite cmod_ok by lia. cbn [bind]. rewrite (nth_error_nth _ _ _ E). splits; auto.
  - rewrite Forall_forall in Hl. apply Hl. eapply nth_error_In; eauto.
  - apply Nat.mod_upper_bound. lia.
Qed.

(** The sizes after [n] more exposures. *)
Definition sz_after (n : nat) (sz : option (list nat * nat)) : option (list nat * nat) :=
  match sz with Some (l, i) => Some (l, (i + n) mod length l) | None => None end.

Lemma sz_after_0 : forall sz, sz_ok sz -> sz_after 0 sz = sz.
Proof. intros [[l i]|] H; cbn; auto. destruct H. now rewrite Nat.add_0_r, Nat.mod_small. Qed.

Lemma sz_after_add : forall n m sz, sz_ok sz -> sz_after m (sz_after n sz) = sz_after (n + m) sz.
Proof.
  intros n m [[l i]|] H; cbn; auto. destruct H. rewrite Nat.add_mod_idemp_l by lia. now rewrite Nat.add_assoc.
Qed.

(** ** TestProducer *)
Section TestProducer.
  Context {T F E : Type}.

  Definition tp_rel (s : test_producer_state T F E) (xs : list T) (l : res F E) (k : nat) : Prop :=
    fs_rel (tp_inner s) xs (Ok tt) k /\ tp_last s = Some l /\ sz_ok (tp_sizes s) /\ oy_ok (tp_yielder s).

  Definition tp_end (s : test_producer_state T F E) : Prop :=
    fs_end (tp_inner s) /\ tp_last s = None.

  Lemma tp_yield_ok : forall s xs l k, tp_rel s xs l k ->
    exists s', tp_maybe_yield s = Ret s' /\ tp_rel s' xs l k /\ tp_sizes s' = tp_sizes s /\ tp_inner s' = tp_inner s.
  Proof.
    intros s xs l k (H1 & H2 & H3 & H4). destruct (maybe_yield_ok H4) as (y' & E1 & Hy).
    unfold tp_maybe_yield. rewrite E1. cbn [bind]. eexists; splits; [reflexivity|repeat split; apply H1 || auto| |]; auto.
  Qed.
  Global Arguments tp_yield_ok {s xs l k} _.

  Lemma fs_not_yet : forall (s : from_slice T) xs l k, fs_rel s xs l k -> from_slice_not_yet_produced s = Ret xs.
  Proof. intros s xs l k H. destruct (fs_rel_accessors H) as (d & _ & E1 & _). exact E1. Qed.
  Global Arguments fs_not_yet {s xs l k} _.

  Lemma fs_rel_nil_end : forall (s : from_slice T) l k, fs_rel s [] l k -> fs_end s.
  Proof.
    intros s l k (H1 & H2 & _). unfold fs_end. apply (f_equal (@length _)) in H2. rewrite skipn_length in H2. cbn in H2. lia.
  Qed.
  Global Arguments fs_rel_nil_end {s l k} _.

  (** The exposed slice, exactly. *)
  Definition tp_shown (s : test_producer_state T F E) (xs : list T) : list T :=
    match tp_sizes s with Some (l, i) => firstn (nth i l 1) xs | None => xs end.
  Definition tp_sizes_next (s : test_producer_state T F E) : option (list nat * nat) := sz_after 1 (tp_sizes s).

  Lemma tp_expose_ok : forall s xs l k, tp_rel s xs l k -> xs <> [] ->
    exists s', test_producer_expose s = Ret (s', Ok (inl (tp_shown s xs))) /\ tp_shown s xs <> [] /\
      tp_rel s' xs l (length (tp_shown s xs)) /\ tp_sizes s' = tp_sizes_next s.
  Proof.
    intros s xs l k H Hne. destruct (tp_yield_ok H) as (s1 & E1 & H' & Hsz & Hin). clear H.
    unfold test_producer_expose. rewrite E1. cbn [bind]. pose proof H' as (Hi & Hl & Hs & Hy).
    rewrite (fs_not_yet Hi). cbn [bind]. unfold tp_shown, tp_sizes_next, sz_after. rewrite <- Hsz.
    destruct xs as [|x0 xs0]; [congruence|]. remember (x0 :: xs0) as xs eqn:Hxs. clear x0 xs0 Hxs.
    destruct Hi as (Hi1 & Hi2 & _ & Hi4).
    assert (E2 : from_slice_expose (tp_inner s1) = Ret (tp_inner s1, Ok (inl xs))).
    { unfold from_slice_expose. rewrite slice_from_ok by lia. cbn [bind]. rewrite <- Hi2. destruct xs; [congruence|reflexivity]. }
    destruct (tp_sizes s1) as [[sl i]|] eqn:E3.
    - destruct Hs as [Hs1 Hs2]. destruct (next_size_ok Hs1 Hs2) as (E4 & Hn & Hs'). rewrite E4. cbn [bind].
      rewrite E2. cbn [bind unwrap_left]. rewrite slice_to_ok by lia. cbn [bind].
      assert (Hf : firstn (Nat.min (length xs) (nth i sl 1)) xs = firstn (nth i sl 1) xs).
      { destruct (le_dec (length xs) (nth i sl 1)).
        - rewrite Nat.min_l, firstn_all, firstn_le_all by lia. reflexivity.
        - now rewrite Nat.min_r by lia. }
      rewrite Hf. eexists; splits; [reflexivity| | |reflexivity].
      + apply firstn_nonempty; auto; lia.
      + unfold tp_rel, fs_rel; cbn [tp_inner tp_last tp_sizes tp_yielder set_inner]. splits; auto. rewrite firstn_length. lia.
    - rewrite E2. cbn [bind unwrap_left]. eexists; splits; [reflexivity|auto| |cbn; auto].
      unfold tp_rel, fs_rel; cbn [tp_inner tp_last tp_sizes tp_yielder set_inner]. rewrite E3. splits; auto; try exact I.
  Qed.
  Global Arguments tp_expose_ok {s xs l k} _ _.

  Lemma test_producer_core : lawful_producer_core (@test_producer T F E) tp_rel tp_end.
  Proof.
    constructor.
    - intros s xs l k ((_ & _ & _ & H) & _). exact H.
    - intros s xs l k ((H1 & H2 & H3 & H4) & H5 & H6). unfold tp_rel, fs_rel. splits; auto; try tauto. lia.
    - intros s x xs l k H. destruct (tp_yield_ok H) as (s1 & E1 & (Hi & Hl & Hs & Hy) & _). clear H.
      cbn. unfold test_producer_produce. rewrite E1. cbn [bind]. rewrite (fs_not_yet Hi). cbn [bind].
      destruct (lp_produce from_slice_core Hi) as (i & E2 & Hi'). cbn in E2. rewrite E2. cbn [bind unwrap_left].
      eexists; split; [reflexivity|]. unfold tp_rel; cbn. auto.
    - intros s l k H. destruct (tp_yield_ok H) as (s1 & E1 & (Hi & Hl & Hs & Hy) & _). clear H.
      cbn. unfold test_producer_produce. rewrite E1. cbn [bind]. rewrite (fs_not_yet Hi). cbn [bind].
      unfold tp_take_last. rewrite Hl. cbn [expect bind]. pose proof (fs_rel_nil_end Hi).
      destruct l; eexists; (split; [reflexivity|]); split; auto.
    - intros s xs l k H Hne. destruct (tp_expose_ok H Hne) as (s' & E1 & Hys & HR & _).
      exists s', (tp_shown s xs), (match tp_sizes s with Some (l, i) => skipn (nth i l 1) xs | None => [] end).
      splits; auto. unfold tp_shown. destruct (tp_sizes s) as [[sl i]|]; [now rewrite firstn_skipn|now rewrite app_nil_r].
    - intros s l k H. destruct (tp_yield_ok H) as (s1 & E1 & (Hi & Hl & Hs & Hy) & _). clear H.
      cbn. unfold test_producer_expose. rewrite E1. cbn [bind]. rewrite (fs_not_yet Hi). cbn [bind].
      unfold tp_take_last. rewrite Hl. cbn [expect bind]. pose proof (fs_rel_nil_end Hi).
      destruct l; eexists; (split; [reflexivity|]); split; auto.
    - intros s xs l k n H Hk Hn. destruct (tp_yield_ok H) as (s1 & E1 & (Hi & Hl & Hs & Hy) & _). clear H.
      cbn. unfold test_producer_consider. rewrite E1. cbn [bind]. unfold tp_check_error.
      rewrite (fs_not_yet Hi). cbn [bind].
      destruct (lp_consider from_slice_core n Hi Hk Hn) as (i & E2 & Hi').
      destruct xs as [|x xs]; [destruct Hi as (_ & _ & _ & Hi); cbn in Hi; lia|].
      cbn [bind]. cbn in E2. injection E2 as <-. eexists; split; [reflexivity|]. unfold tp_rel; cbn. auto.
  Qed.

  Lemma test_producer_lawful : lawful_producer (@test_producer T F E) tp_rel tp_end.
  Proof. apply default_lawful_producer; [apply test_producer_core|reflexivity]. Qed.

  Lemma test_producer_slurp_lawful : lawful_slurp (@test_producer T F E) tp_rel tp_end.
  Proof.
    intros s xs l k H. destruct (tp_yield_ok H) as (s1 & E1 & HR & _). pose proof HR as (Hi & Hl & Hs & Hy). clear H.
    cbn. unfold test_producer_slurp. rewrite E1. cbn [bind]. unfold tp_check_error.
    rewrite (fs_not_yet Hi). cbn [bind]. destruct xs as [|x xs].
    - rewrite Hl. cbn [expect bind]. destruct l as [f|e]; cbn [bind].
      + left. exists s1. auto.
      + right. eexists; exists e. splits; [reflexivity|auto|auto|]. split; cbn; auto. exact (fs_rel_nil_end Hi).
    - left. exists s1. auto.
  Qed.

  Lemma tp_rel_build : forall items last sizes pattern,
    (match sizes with Some l => Forall (fun n => 1 <= n) l | None => True end) ->
    tp_rel (test_producer_build items last sizes pattern) items last 0.
  Proof.
    intros items last sizes pattern Hs. unfold test_producer_build, tp_rel; cbn. splits; auto.
    - apply fs_rel_new.
    - destruct sizes as [l|]; [|exact I]. unfold builder_sizes. destruct (Nat.ltb_spec 0 (length l)); cbn; auto.
    - destruct pattern; cbn; auto. apply yielder_new_ok.
  Qed.

  (** Counting exposures. *)
  Lemma tp_sizes_count : forall s a h s' a',
    p_rel tp_rel tp_end s a -> p_history (@test_producer T F E) s a h s' a' -> a' <> PEnded ->
    tp_sizes s' = sz_after (exposures h) (tp_sizes s).
  Proof.
    intros s a h s' a' HR HH Hend.
    induction HH as [s a|s a o s1 r a1 h s2 a2 HP HD HA HH IH].
    - destruct a as [xs l k|]; [|congruence]. cbn in HR. symmetry. apply sz_after_0. apply HR.
    - destruct (@lawful_p_step _ _ _ _ _ _ _ o s a test_producer_lawful (or_introl test_producer_slurp_lawful) HR HP)
        as (s1' & r' & a1' & HD' & HA' & HR1).
      rewrite HD in HD'. injection HD' as <- <-. rewrite (p_answer_det _ _ _ _ _ HA' HA) in HR1. clear HA'.
      assert (Hna : a1 <> PEnded).
      { intros ->. inversion HH; subst; [congruence|]. match goal with H : p_permitted PEnded _ |- _ => destruct H end. }
      assert (Hs1 : tp_sizes s1 = sz_after (exposures [(o, r)]) (tp_sizes s)).
      { destruct a as [xs l k|]; [|destruct HP]. cbn in HR.
        assert (H0 : sz_after 0 (tp_sizes s) = tp_sizes s) by (apply sz_after_0; apply HR).
        pose proof (tp_yield_ok HR) as (sy & Ey & HRy & Hsy & Hiy).
        destruct o; destruct r; cbn [p_answer] in HA; try contradiction; cbn [p_do] in HD.
        - destruct xs as [|x xs]; [destruct HA as [_ ->]; congruence|]. destruct HA as [-> ->].
          cbn in HD. unfold test_producer_produce in HD. rewrite Ey in HD. cbn [bind] in HD.
          destruct HRy as (Hi & Hl & Hs & Hy). rewrite (fs_not_yet Hi) in HD. cbn [bind] in HD.
          destruct (lp_produce from_slice_core Hi) as (i & E2 & Hi'). cbn in E2. rewrite E2 in HD. cbn [bind unwrap_left] in HD.
          injection HD as <-. cbn [exposures]. rewrite H0. exact Hsy.
        - cbn in HD. unfold test_producer_slurp in HD. rewrite Ey in HD. cbn [bind] in HD.
          unfold tp_check_error in HD. destruct HRy as (Hi & Hl & Hs & Hy). rewrite (fs_not_yet Hi) in HD. cbn [bind] in HD.
          destruct HA as [[-> ->]|(e & _ & _ & _ & ->)]; [|congruence].
          cbn [exposures]. rewrite H0.
          destruct xs; [rewrite Hl in HD; cbn [expect bind] in HD; destruct l; cbn [bind] in HD|]; try discriminate; injection HD as <-; exact Hsy.
        - destruct xs as [|x xs]; [destruct HA as [_ ->]; congruence|].
          destruct (tp_expose_ok HR) as (s3 & E3 & _ & _ & Hs3); [discriminate|].
          cbn in HD. rewrite E3 in HD. cbn [bind] in HD. injection HD as <- <-. rewrite Hs3. reflexivity.
        - destruct HP as [HP1 HP2]. destruct HA as [-> ->].
          cbn in HD. unfold test_producer_consider in HD. rewrite Ey in HD. cbn [bind] in HD.
          unfold tp_check_error in HD. destruct HRy as (Hi & Hl & Hs & Hy). rewrite (fs_not_yet Hi) in HD. cbn [bind] in HD.
          destruct xs as [|x xs]; [destruct Hi as (_ & _ & _ & Hi); cbn in Hi; lia|].
          cbn in HD. injection HD as <-. cbn [exposures]. rewrite H0. exact Hsy.
        - destruct xs as [|x xs]; [destruct HA as (_ & _ & ->); congruence|].
          destruct HA as (m & Hm & Hmx & -> & -> & ->).
          destruct (tp_expose_ok HR) as (s3 & E3 & Hne & HR3 & Hs3); [discriminate|].
          cbn in HD. unfold default_bulk_produce in HD. rewrite E3 in HD. cbn [bind] in HD.
          pose proof (tp_yield_ok HR3) as (sy3 & Ey3 & HRy3 & Hsy3 & Hiy3).
          unfold test_producer_consider in HD. rewrite Ey3 in HD. cbn [bind] in HD.
          unfold tp_check_error in HD. destruct HRy3 as (Hi & Hl & Hs & Hy). rewrite (fs_not_yet Hi) in HD. cbn [bind] in HD.
          unfold from_slice_consider in HD. cbn [bind] in HD. injection HD as <- _ _.
          cbn [set_inner tp_sizes]. rewrite Hsy3, Hs3. reflexivity. }
      rewrite (IH HR1 Hend), Hs1.
      assert (exposures ((o, r) :: h) = exposures [(o, r)] + exposures h) as ->
        by (destruct r as [|?|[[|]|]|? [[|]|]]; reflexivity).
      apply sz_after_add. destruct a as [xs l k|]; [|destruct HP]. apply HR.
  Qed.
End TestProducer.

(** ** TestConsumer *)
Section TestConsumer.
  Context {T F E : Type} (default : T) (error : E).

  Definition tc_rel (s : test_consumer_state T F E) (a : tstate T F) (k : nat) (w : list T) : Prop :=
    iv_rel (tc_inner s) (t_log a) k w /\ tc_fin s = t_fin a /\ tc_left s = t_left a /\
    tc_error s = Some error /\ t_failed a = false /\ k <= t_left a /\ sz_ok (tc_sizes s) /\ oy_ok (tc_yielder s).

  Definition tc_end (s : test_consumer_state T F E) (a : tstate T F) : Prop :=
    iv_rel (tc_inner s) (t_log a) 0 [] /\ tc_fin s = t_fin a /\ tc_left s = t_left a /\
    tc_error s = (if t_failed a then None else Some error).

  Lemma tc_yield_ok : forall s a k w, tc_rel s a k w ->
    exists s', tc_maybe_yield s = Ret s' /\ tc_rel s' a k w /\ tc_sizes s' = tc_sizes s /\ tc_inner s' = tc_inner s.
  Proof.
    intros s a k w (H1 & H2 & H3 & H4 & H5 & H6 & H7 & H8). destruct (maybe_yield_ok H8) as (y' & E1 & Hy).
    unfold tc_maybe_yield. rewrite E1. cbn [bind]. eexists; splits; [reflexivity| |reflexivity|reflexivity].
    unfold tc_rel; cbn. splits; auto.
  Qed.
  Global Arguments tc_yield_ok {s a k w} _.

  Lemma tc_check_ok : forall s a k w, tc_rel s a k w -> 1 <= t_left a -> tc_check_error s = Ret (s, None).
  Proof.
    intros s a k w (H1 & H2 & H3 & H4 & H5) Hl. unfold tc_check_error. rewrite H3.
    destruct (Nat.eqb_spec (t_left a) 0); [lia|reflexivity].
  Qed.
  Global Arguments tc_check_ok {s a k w} _ _.

  Lemma tc_check_err : forall s a k w, tc_rel s a k w -> t_left a = 0 ->
    exists s', tc_check_error s = Ret (s', Some error) /\ tc_end s' (t_fail a).
  Proof.
    intros s a k w (H1 & H2 & H3 & H4 & H5) Hl. unfold tc_check_error. rewrite H3, Hl, H4. cbn.
    eexists; split; [reflexivity|]. unfold tc_end; cbn. splits; auto; try congruence. exact (iv_rel_forget H1).
  Qed.
  Global Arguments tc_check_err {s a k w} _ _.

  Lemma tc_grow_ok : forall fuel min_len i log k w, iv_rel i log k w ->
    1 <= fuel -> min_len + length log < fuel + length (iv_v i) ->
    exists i', tc_grow default fuel min_len i = Ret i' /\ iv_rel i' log 0 [] /\ min_len <= length (iv_v i') - length log.
  Proof.
    induction fuel as [|fuel IH]; intros min_len i log k w HR Hf1 Hf; cbn [tc_grow]; [lia|].
    pose proof HR as (H1 & H2 & H3 & H4). unfold into_vec_remaining_slots. rewrite csub_ok by lia. cbn [bind].
    rewrite H1. destruct (Nat.ltb_spec (length (iv_v i) - length log) min_len) as [Hlt|Hge].
    - eapply IH.
      + apply iv_rel_resize; [exact HR|lia].
      + lia.
      + cbn [into_vec_make_space_even_if_not_needed iv_v]. rewrite length_resize. lia.
    - exists i. splits; auto. exact (iv_rel_forget HR).
  Qed.
  Global Arguments tc_grow_ok {fuel min_len i log k w} _ _ _.

  (** Exactly what [expose_slots] offers. *)
  Definition tc_size (s : test_consumer_state T F E) : option nat :=
    match tc_sizes s with Some (l, i) => Some (nth i l 1) | None => None end.
  Definition tc_sizes_next (s : test_consumer_state T F E) : option (list nat * nat) := sz_after 1 (tc_sizes s).

  Lemma tc_expose_ok : forall s a k w, tc_rel s a k w -> 1 <= t_left a ->
    exists s' slots, min_opt 2048 (tc_size s) <= slots /\
      test_consumer_expose default s = Ret (s', Ok (Nat.min (min_opt slots (tc_size s)) (t_left a))) /\
      1 <= Nat.min (min_opt slots (tc_size s)) (t_left a) /\
      tc_rel s' a (Nat.min (min_opt slots (tc_size s)) (t_left a)) [] /\ tc_sizes s' = tc_sizes_next s.
  Proof.
    intros s a k w H Hl. destruct (tc_yield_ok H) as (s1 & E1 & H' & Hsz & Hin). clear H.
    unfold test_consumer_expose. rewrite E1. cbn [bind]. rewrite (tc_check_ok H' Hl). cbn [bind].
    pose proof H' as (H1 & H2 & H3 & H4 & H5 & H6 & H7 & H8). unfold tc_size, tc_sizes_next, sz_after. rewrite <- Hsz.
    assert (HX : forall mx sz, (match mx with Some n => 1 <= n | None => True end) -> sz_ok sz ->
      exists s' slots, min_opt 2048 mx <= slots /\
        (let* i := tc_grow default (min_opt 2048 mx + 1) (min_opt 2048 mx) (tc_inner s1) in
         let* (i, r) := into_vec_expose default i in
         match r with
         | Ok slots =>
             Ret (mk_tc i (tc_fin s1) (tc_error s1) (tc_left s1) sz (tc_yielder s1), @Ok _ E (Nat.min (min_opt slots mx) (tc_left s1)))
         | Err _ => Panic
         end) = Ret (s', Ok (Nat.min (min_opt slots mx) (t_left a))) /\
        1 <= Nat.min (min_opt slots mx) (t_left a) /\
        tc_rel s' a (Nat.min (min_opt slots mx) (t_left a)) [] /\ tc_sizes s' = sz).
    { intros mx sz Hmx Hszok.
      destruct (@tc_grow_ok (min_opt 2048 mx + 1) (min_opt 2048 mx) (tc_inner s1) (t_log a) k w H1) as (i & E2 & Hi & Hmin).
      { lia. }
      { destruct H1 as (? & ? & _). lia. }
      rewrite E2. cbn [bind].
      destruct (iv_expose_ok default Hi) as (i' & n & E3 & Hn & Hn2 & Hi' & HR). rewrite E3. cbn [bind].
      assert (Hge : length (iv_v i) <= length (iv_v i')).
      { rewrite Hi'. unfold into_vec_make_space_if_needed. destruct (Nat.eqb_spec (iv_consumed i) (length (iv_v i))); [|lia].
        cbn [iv_v]. rewrite length_resize. lia. }
      assert (Hn1 : 1 <= Nat.min (min_opt n mx) (t_left a)) by (destruct mx; cbn [min_opt]; lia).
      assert (Hnn : Nat.min (min_opt n mx) (t_left a) <= n) by (destruct mx; cbn [min_opt]; lia).
      eexists; exists n. rewrite H3. splits; [lia|reflexivity|exact Hn1| |reflexivity].
      unfold tc_rel; cbn [tc_inner tc_fin tc_left tc_error tc_sizes tc_yielder]. splits; auto; try lia.
      destruct HR as (R1 & R2 & R3 & R4). unfold iv_rel. splits; auto; cbn; lia. }
    destruct (tc_sizes s1) as [[sl i]|] eqn:E3.
    - destruct H7 as [Hs1 Hs2]. destruct (next_size_ok Hs1 Hs2) as (E4 & Hn & Hs'). rewrite E4. cbn [bind].
      exact (HX (Some (nth i sl 1)) _ Hn Hs').
    - cbn [bind]. exact (HX None None I I).
  Qed.
  Global Arguments tc_expose_ok {s a k w} _ _.

  Lemma failing_feed : forall xs a, length xs <= t_left a ->
    m_feed (failing_machine T F error) xs a =
      (mk_tstate (t_log a ++ xs) (t_fin a) (t_left a - length xs) (t_failed a), length xs, None).
  Proof.
    induction xs as [|x xs IH]; intros [log fin n b] H; cbn in *.
    - now rewrite app_nil_r, Nat.sub_0_r.
    - destruct n as [|n]; [lia|]. rewrite IH by (cbn; lia). cbn. now rewrite <- app_assoc.
  Qed.

  Lemma test_consumer_core :
    lawful_consumer_core (test_consumer default) (failing_machine T F error) tc_rel tc_end.
  Proof.
    constructor.
    - intros s a k w ((_ & _ & H & _) & _). exact H.
    - intros s a k w (H1 & H2 & H3 & H4 & H5 & H6 & H7 & H8). unfold tc_rel. splits; auto; try lia.
      exact (iv_rel_forget H1).
    - intros s a k w x H. destruct (tc_yield_ok H) as (s1 & E1 & H' & _). clear H.
      cbn [test_consumer bulk_consumer_of c_buffered c_consumer c_consume c_close c_flush c_expose c_write c_consume_slots c_bulk_consume].
      unfold test_consumer_consume. rewrite E1. cbn [bind m_step failing_machine].
      destruct (t_left a) as [|n] eqn:El.
      + destruct (tc_check_err H' El) as (s2 & E2 & HD). rewrite E2. cbn [bind]. exists s2. auto.
      + rewrite (tc_check_ok H') by lia. cbn [bind].
        destruct H' as (H1 & H2 & H3 & H4 & H5 & H6 & H7 & H8).
        destruct (iv_consume_ok default x H1) as (i & E2 & HR). rewrite E2. cbn [bind].
        rewrite csub_ok by lia. cbn [bind]. eexists; split; [reflexivity|].
        unfold tc_rel; cbn. splits; auto; lia.
    - intros s a k w f H. destruct (tc_yield_ok H) as (s1 & E1 & H' & _). clear H.
      cbn [test_consumer bulk_consumer_of c_buffered c_consumer c_consume c_close c_flush c_expose c_write c_consume_slots c_bulk_consume].
      unfold test_consumer_close. rewrite E1. cbn [bind m_finish failing_machine].
      destruct (t_left a) as [|n] eqn:El.
      + destruct (tc_check_err H' El) as (s2 & E2 & HD). rewrite E2. cbn [bind]. exists s2. auto.
      + rewrite (tc_check_ok H') by lia. cbn [bind into_vec_close].
        destruct H' as (H1 & H2 & H3 & H4 & H5 & H6 & H7 & H8).
        eexists; split; [reflexivity|]. unfold tc_end; cbn. rewrite H5. splits; auto; try lia. exact (iv_rel_forget H1).
    - intros s a k w H. destruct (tc_yield_ok H) as (s1 & E1 & H' & _). clear H.
      cbn [test_consumer bulk_consumer_of c_buffered c_consumer c_consume c_close c_flush c_expose c_write c_consume_slots c_bulk_consume].
      unfold test_consumer_flush. rewrite E1. cbn [bind m_flush failing_machine].
      destruct (t_left a) as [|n] eqn:El.
      + destruct (tc_check_err H' El) as (s2 & E2 & HD). rewrite E2. cbn [bind]. exists s2. auto.
      + rewrite (tc_check_ok H') by lia. cbn [bind into_vec_flush].
        eexists; split; [reflexivity|]. destruct H' as (H1 & H2 & H3 & H4 & H5 & H6 & H7 & H8).
        unfold tc_rel; cbn. splits; auto.
    - intros s a k w H. destruct (t_left a) as [|n] eqn:El.
      + right. destruct (tc_yield_ok H) as (s1 & E1 & H' & _). clear H.
        cbn [test_consumer bulk_consumer_of c_buffered c_consumer c_consume c_close c_flush c_expose c_write c_consume_slots c_bulk_consume].
        unfold test_consumer_expose. rewrite E1. cbn [bind].
        destruct (tc_check_err H' El) as (s2 & E2 & HD). rewrite E2. cbn [bind].
        exists s2, error, (t_fail a). splits; auto. intros x. cbn. now rewrite El.
      + left. destruct (tc_expose_ok H) as (s' & slots & _ & E1 & Hn & HR & _); [lia|]. eexists s', _. split; [exact E1|]. auto.
    - intros s a k w ys (H1 & H2 & H3 & H4 & H5 & H6 & H7 & H8) Hy. unfold tc_rel; cbn. splits; auto.
      exact (iv_write_ok ys H1 Hy).
    - intros s a k w n H Hk Hn. pose proof H as ((_ & _ & Hw & _) & _ & _ & _ & _ & Hkl & _).
      assert (Hf : length (firstn n w) = n) by (rewrite firstn_length; lia).
      rewrite failing_feed by lia. destruct (tc_yield_ok H) as (s1 & E1 & H' & _). clear H.
      cbn [test_consumer bulk_consumer_of c_buffered c_consumer c_consume c_close c_flush c_expose c_write c_consume_slots c_bulk_consume].
      unfold test_consumer_consume_slots. rewrite E1. cbn [bind]. rewrite (tc_check_ok H') by lia. cbn [bind].
      destruct H' as (H1 & H2 & H3 & H4 & H5 & H6 & H7 & H8).
      destruct (iv_consume_slots_ok H1 Hn) as (i & E2 & HR). rewrite E2. cbn [bind].
      rewrite csub_ok by lia. cbn [bind]. eexists; split; [reflexivity|].
      unfold tc_rel; cbn. rewrite Hf. splits; auto; lia.
  Qed.

  Lemma test_consumer_lawful :
    lawful_consumer (test_consumer default) (failing_machine T F error) tc_rel tc_end.
  Proof. apply default_lawful_consumer; [apply test_consumer_core|reflexivity]. Qed.

  Lemma test_consumer_clean : clean_bulk (test_consumer default) (failing_machine T F error) tc_rel.
  Proof.
    intros s a k w x buf s' e HR HD.
    destruct (t_left a) as [|n] eqn:El.
    - destruct (lc_bulk test_consumer_lawful (x :: buf) HR) as [(? & ? & ? & E1 & _)|(? & ? & ? & ? & E1 & E2 & _)];
        [discriminate| |]; rewrite HD in E1; [discriminate|]. injection E1 as _ <-.
      cbn in E2 |- *. rewrite El in E2 |- *. injection E2 as _ _ <-. reflexivity.
    - exfalso. destruct (tc_expose_ok HR) as (s1 & slots & _ & E1 & Hn & HR1 & _); [lia|].
      revert HD. cbn [test_consumer bulk_consumer_of c_buffered c_consumer c_consume c_close c_flush c_expose c_write c_consume_slots c_bulk_consume]. unfold default_bulk_consume. rewrite E1. cbn [bind].
      set (m := Nat.min _ _) in *. intros HD.
      set (am := Nat.min m (length (x :: buf))) in *.
      assert (Ham : 1 <= am) by (unfold am; cbn [length]; lia).
      assert (Hw : length (firstn am (x :: buf)) <= m) by (rewrite firstn_length; unfold am; lia).
      pose proof (lc_write test_consumer_core _ HR1 Hw) as HR2.
      assert (Hfl : length (firstn am (x :: buf)) = am) by (rewrite firstn_length; unfold am; lia).
      pose proof (lc_consume_slots test_consumer_core am HR2) as HC.
      pose proof HR1 as (_ & _ & _ & _ & _ & Hml & _).
      rewrite overlay_nil, failing_feed in HC by (rewrite firstn_length; lia).
      destruct HC as (s2 & E2 & _); [lia|lia|].
      cbn [test_consumer bulk_consumer_of c_buffered c_consumer c_consume c_close c_flush c_expose c_write c_consume_slots c_bulk_consume] in E2.
      rewrite E2 in HD. cbn [bind] in HD. discriminate.
  Qed.

  Lemma tc_rel_build : forall n sizes pattern,
    (match sizes with Some l => Forall (fun n => 1 <= n) l | None => True end) ->
    tc_rel (test_consumer_build error n sizes pattern) (mk_tstate [] None n false) 0 [].
  Proof.
    intros n sizes pattern Hs. unfold test_consumer_build, tc_rel; cbn [tc_inner tc_fin tc_left tc_error tc_sizes tc_yielder t_log t_fin t_left t_failed].
    splits; auto; try lia.
    - apply iv_rel_from_vec.
    - destruct sizes as [l|]; [|exact I]. unfold builder_sizes. destruct (Nat.ltb_spec 0 (length l)); cbn; auto.
    - destruct pattern; cbn; auto. apply yielder_new_ok.
  Qed.

  Lemma tc_accessors : forall s a, c_rel tc_rel tc_end s a ->
    match a with
    | CActive a _ _ | CEnded a =>
        test_consumer_consumed s = Ret (t_log a) /\ test_consumer_final_consumed s = t_fin a /\
        test_consumer_into_consumed s = (t_log a, t_fin a) /\
        test_consumer_did_error s = t_failed a /\
        test_consumer_peek_error s = (if t_failed a then None else Some error)
    end.
  Proof.
    intros s [a k w|a] H; cbn in H.
    - destruct H as (H1 & H2 & H3 & H4 & H5 & H6 & H7 & H8).
      destruct (iv_rel_read H1) as [R1 R2].
      unfold test_consumer_consumed, test_consumer_final_consumed, test_consumer_into_consumed,
        test_consumer_did_error, test_consumer_peek_error. rewrite R1, R2, H2, H4, H5. auto.
    - destruct H as (H1 & H2 & H3 & H4). destruct (iv_rel_read H1) as [R1 R2].
      unfold test_consumer_consumed, test_consumer_final_consumed, test_consumer_into_consumed,
        test_consumer_did_error, test_consumer_peek_error. rewrite R1, R2, H2, H4. destruct (t_failed a); auto 6.
  Qed.
End TestConsumer.

Lemma into_vec_clean : forall T (d : T), clean_bulk (into_vec_consumer d) (collect_machine T unit infallible) (@iv_rel T).
Proof. intros T d s a k w x buf s' e _ _. destruct e. Qed.

(** ** Histories *)

Lemma from_slice_history : forall T (l : list T) h s' a',
  p_history from_slice_producer (from_slice_new l) (PActive l (Ok tt) 0) h s' a' ->
  from_slice_into_inner s' = l /\
  fs_offset s' = length (p_emitted [] h) /\
  from_slice_produced_so_far s' = Ret (p_emitted [] h) /\
  from_slice_not_yet_produced s' = Ret (skipn (length (p_emitted [] h)) l) /\
  p_emitted [] h ++ skipn (length (p_emitted [] h)) l = l /\
  match a' with
  | PEnded => p_emitted [] h = l /\ p_last h = Some (Ok tt)
  | PActive _ _ _ => p_last h = None
  end.
Proof.
  intros T l h s' a' H.
  assert (HK : fs_slice s' = l).
  { change l with (fs_slice (from_slice_new l)). revert H. generalize (from_slice_new l) (PActive l (@Ok _ infallible tt) 0).
    intros s a H. induction H as [|s a o s1 r a1 h s2 a2 HP HD HA HH IH]; [reflexivity|].
    rewrite IH. exact (from_slice_keeps _ _ HD). }
  pose proof (@lawful_p_history _ _ _ _ _ fs_rel fs_end _ (PActive l (Ok tt) 0) _ _ _ from_slice_lawful (or_introl from_slice_slurp_lawful) (fs_rel_new l) H) as HR.
  pose proof (@p_history_emits _ _ _ _ _ _ _ _ _ _ _ _ (Nat.le_0_l _) H) as HE. cbn [firstn] in HE.
  set (em := p_emitted [] h) in *.
  assert (Hem : fs_offset s' = length em /\ exists ys, em ++ ys = l).
  { destruct a' as [ys l' k'|]; cbn in HR.
    - destruct HE as (HE & _). destruct HR as (R1 & R2 & _). split; [|now exists ys].
      rewrite HK in R1, R2. apply (f_equal (@length _)) in HE, R2. rewrite app_length in HE. rewrite skipn_length in R2. lia.
    - destruct HE as (HE & _). unfold fs_end in HR. rewrite HR, HK, <- HE. split; auto. exists []. apply app_nil_r. }
  destruct Hem as [Ho [ys Hys]].
  assert (Hf : firstn (length em) l = em) by (rewrite <- Hys, firstn_app, firstn_all, Nat.sub_diag; cbn; apply app_nil_r).
  assert (Hle : length em <= length l) by (rewrite <- Hys, app_length; lia).
  unfold from_slice_into_inner, from_slice_produced_so_far, from_slice_not_yet_produced. rewrite HK, Ho.
  rewrite slice_to_ok, slice_from_ok by lia. splits; auto.
  - now rewrite Hf.
  - rewrite <- Hf at 1. apply firstn_skipn.
  - destruct a'; tauto.
Qed.

Lemma collect_history : forall S T F E (x0 : T) (C : bulk_consumer S T F E) s a k w h s' a',
  c_history C (collect_machine T F E) s (CActive a k w) h s' a' ->
  match a' with CActive a' _ _ | CEnded a' => a' = a ++ c_consumed w h end /\
  c_failed h = false /\ (match a' with CActive _ _ _ => c_closed h = None | CEnded _ => c_closed h <> None end).
Proof.
  intros S T F E x0 C s a k w h s' a' H. remember (CActive a k w) as x eqn:Hx. revert a k w Hx.
  induction H as [s x|s x o s1 r x1 h s2 x2 HP HD HA HH IH]; intros a k w ->.
  - cbn. rewrite app_nil_r. auto.
  - destruct o; destruct r; cbn [c_answer] in HA; try contradiction.
    + destruct HA as [-> ->]. cbn in *. destruct (IH _ _ _ eq_refl) as (I1 & I2 & I3). splits; auto.
      destruct x2; rewrite I1, <- app_assoc; reflexivity.
    + destruct HA as [-> ->]. cbn in *. inversion HH; subst; [|match goal with X : c_permitted (CEnded _) _ |- _ => destruct X end].
      cbn. rewrite app_nil_r. splits; auto. discriminate.
    + destruct HA as [-> ->]. cbn in *. destruct (IH _ _ _ eq_refl) as (I1 & I2 & I3). auto.
    + destruct HA as [(n & Hn & -> & ->)|(e & a1 & H1 & -> & ->)].
      * cbn. destruct (IH _ _ _ eq_refl) as (I1 & I2 & I3). auto.
      * cbn in H1. specialize (H1 x0). discriminate.
    + subst x1. cbn. destruct (IH _ _ _ eq_refl) as (I1 & I2 & I3). auto.
    + rewrite collect_feed in HA. destruct HA as [-> ->]. cbn. destruct (IH _ _ _ eq_refl) as (I1 & I2 & I3). splits; auto.
      destruct x2; rewrite I1, <- app_assoc; reflexivity.
    + destruct HA as [(n & a1 & Hn & HF & -> & ->)|(n & e & a1 & HF & -> & ->)]; rewrite collect_feed in HF; [|discriminate].
      injection HF as <-. cbn. destruct (IH _ _ _ eq_refl) as (I1 & I2 & I3). splits; auto.
      destruct x2; rewrite I1, <- app_assoc; reflexivity.
Qed.

Lemma into_vec_history : forall T (d : T) v h s' a',
  c_history (into_vec_consumer d) (collect_machine T unit infallible) (into_vec_from_vec v) (CActive v 0 []) h s' a' ->
  into_vec_as_ref s' = Ret (v ++ c_consumed [] h) /\ into_vec_into_vec s' = v ++ c_consumed [] h.
Proof.
  intros T d v h s' a' H. destruct (collect_history d H) as (HE & _).
  pose proof (@lawful_c_history _ _ _ _ _ _ _ _ _ d _ (CActive v 0 []) _ _ _ (into_vec_lawful d) (iv_rel_from_vec v) H) as HR.
  destruct a' as [a' k' w'|a']; cbn in HR; subst a'; exact (iv_rel_read HR).
Qed.

Lemma tp_history : forall T F E (items : list T) (last : res F E) sizes pattern h s' a',
  (match sizes with Some l => Forall (fun n => 1 <= n) l | None => True end) ->
  p_history (@test_producer T F E) (test_producer_build items last sizes pattern) (PActive items last 0) h s' a' ->
  test_producer_remaining s' = Ret (skipn (length (p_emitted [] h)) items) /\
  p_emitted [] h ++ skipn (length (p_emitted [] h)) items = items /\
  test_producer_peek_last s' = (match p_last h with None => Some last | Some _ => None end) /\
  test_producer_did_already_emit_last s' = (match p_last h with None => false | Some _ => true end) /\
  (a' = PEnded -> p_emitted [] h = items /\ p_last h = Some last) /\
  (forall ys l k, a' = PActive ys l k -> ys = skipn (length (p_emitted [] h)) items /\ l = last /\ p_last h = None).
Proof.
  intros T F E items last sizes pattern h s' a' Hs H.
  pose proof (@lawful_p_history _ _ _ _ _ _ _ _ (PActive items last 0) _ _ _ test_producer_lawful
    (or_introl test_producer_slurp_lawful) (tp_rel_build items last sizes pattern Hs) H) as HR.
  pose proof (@p_history_emits _ _ _ _ _ _ _ _ _ _ _ _ (Nat.le_0_l _) H) as HE. cbn [firstn] in HE.
  unfold test_producer_remaining, test_producer_peek_last, test_producer_did_already_emit_last.
  destruct a' as [ys l' k'|]; cbn in HR.
  - destruct HE as (HE & -> & HL & _). destruct HR as (R1 & R2 & _). rewrite R2, HL, (fs_not_yet R1).
    assert (Hys : skipn (length (p_emitted [] h)) items = ys)
      by (rewrite <- HE; rewrite skipn_app, skipn_all, Nat.sub_diag; reflexivity).
    rewrite Hys. splits; auto; [discriminate|]. intros ? ? ? E1. injection E1 as <- <- <-. auto.
  - destruct HE as (HE & HL). destruct HR as (R1 & R2). rewrite R2, HL, HE, skipn_all, app_nil_r.
    unfold from_slice_not_yet_produced. rewrite slice_from_ok by (unfold fs_end in R1; lia).
    rewrite R1, skipn_all. splits; auto. discriminate.
Qed.

(** The next exposure. *)
Lemma tp_history_exposure : forall T F E (items : list T) (last : res F E) sizes pattern h s' ys l k,
  (match sizes with Some l => Forall (fun n => 1 <= n) l | None => True end) ->
  p_history (@test_producer T F E) (test_producer_build items last sizes pattern) (PActive items last 0) h s' (PActive ys l k) ->
  ys <> [] ->
  exists s'', p_expose (@test_producer T F E) s' = Ret (s'', Ok (inl
    match sizes with
    | None | Some [] => ys
    | Some sizes => firstn (cycle 1 sizes (exposures h)) ys
    end)).
Proof.
  intros T F E items last sizes pattern h s' ys l k Hs H Hne.
  pose proof (tp_rel_build items last sizes pattern Hs) as HB.
  pose proof (@lawful_p_history _ _ _ _ _ _ _ _ (PActive items last 0) _ _ _ test_producer_lawful
    (or_introl test_producer_slurp_lawful) HB H) as HR. cbn in HR.
  destruct (tp_expose_ok HR Hne) as (s'' & E1 & _). exists s''. cbn. rewrite E1. do 4 f_equal. unfold tp_shown.
  rewrite (@tp_sizes_count _ _ _ _ (PActive items last 0) _ _ _ HB H) by discriminate.
  cbn [tp_sizes test_producer_build]. destruct sizes as [[|n sizes]|]; reflexivity.
Qed.

Section TestConsumerHistory.
  Context {T F E : Type} (default : T) (error : E).
  Notation M := (failing_machine T F error).
  Notation C := (@test_consumer T F E default).

  Definition t_of (x : cabs (tstate T F) T) : tstate T F := match x with CActive a _ _ | CEnded a => a end.

  Lemma tc_history : forall s a k w h s' x',
    tc_rel error s a k w -> c_history C M s (CActive a k w) h s' x' ->
    t_log (t_of x') = t_log a ++ c_consumed w h /\
    t_left (t_of x') + length (c_consumed w h) = t_left a /\
    t_failed (t_of x') = c_failed h /\
    (c_failed h = true -> t_left (t_of x') = 0) /\
    t_fin (t_of x') = match c_closed h with Some f => Some f | None => t_fin a end.
  Proof.
    intros s a k w h s' x' HR H. remember (CActive a k w) as x eqn:Hx. revert a k w Hx HR.
    induction H as [s x|s x o s1 r x1 h s2 x2 HP HD HA HH IH]; intros a k w -> HR.
    - cbn. rewrite app_nil_r, Nat.add_0_r. splits; auto; [apply HR|discriminate].
    - assert (HR1 : c_rel (tc_rel error) (tc_end error) s1 x1).
      { destruct (@lawful_c_step _ _ _ _ _ _ _ _ _ o s (CActive a k w) (test_consumer_lawful default error) HR HP) as (s1' & r' & x1' & HD' & HA' & HR1).
        rewrite HD in HD'. injection HD' as <- <-. now rewrite (c_answer_det default _ _ _ _ _ HA' HA) in HR1. }
      assert (Hend : forall a1, x1 = CEnded a1 -> h = [] /\ x2 = CEnded a1).
      { intros a1 ->. inversion HH; subst; auto. match goal with X : c_permitted (CEnded _) _ |- _ => destruct X end. }
      destruct o; destruct r; cbn [c_answer] in HA; try contradiction.
      + (* consume *)
        destruct HA as [-> Hx1]. cbn [m_step failing_machine] in *.
        destruct (t_left a) as [|n] eqn:El; cbn in Hx1.
        * destruct (Hend _ Hx1) as [-> ->]. cbn. rewrite app_nil_r. splits; auto. rewrite El. lia.
        * subst x1. destruct (IH _ _ _ eq_refl HR1) as (I1 & I2 & I3 & I4 & I5). cbn in *.
          rewrite I1, <- app_assoc. splits; auto. lia.
      + (* close *)
        destruct HA as [-> Hx1]. destruct (Hend _ Hx1) as [-> ->]. pose proof HR as (_ & _ & _ & _ & Hfd & _). cbn.
        destruct (t_left a) as [|n] eqn:El; cbn; rewrite app_nil_r; splits; auto; try lia; try discriminate.
      + (* flush *)
        destruct HA as [-> Hx1]. cbn [m_flush failing_machine] in *.
        destruct (t_left a) as [|n] eqn:El; cbn in Hx1.
        * destruct (Hend _ Hx1) as [-> ->]. cbn. rewrite app_nil_r. splits; auto. rewrite El. lia.
        * subst x1. destruct (IH _ _ _ eq_refl HR1) as (I1 & I2 & I3 & I4 & I5). cbn in *.
          splits; auto. lia.
      + (* expose *)
        destruct HA as [(n & Hn & -> & Hx1)|(e & a1 & H1 & -> & Hx1)].
        * subst x1. destruct (IH _ _ _ eq_refl HR1) as (I1 & I2 & I3 & I4 & I5). cbn in *. splits; auto.
        * destruct (Hend _ Hx1) as [-> ->]. specialize (H1 default). cbn in H1 |- *.
          destruct (t_left a) as [|n] eqn:El; [|discriminate]. injection H1 as <- _. cbn. rewrite app_nil_r. splits; auto. rewrite El. lia.
      + (* write *)
        subst x1. destruct (IH _ _ _ eq_refl HR1) as (I1 & I2 & I3 & I4 & I5). cbn in *. splits; auto.
      + (* consume_slots *)
        destruct HP as [HP1 HP2].
        pose proof HR as ((_ & _ & Hw & _) & _ & _ & _ & _ & Hkl & _).
        rewrite failing_feed in HA by (rewrite firstn_length; lia). destruct HA as [-> Hx1]. subst x1.
        destruct (IH _ _ _ eq_refl HR1) as (I1 & I2 & I3 & I4 & I5). cbn in *.
        rewrite I1, <- app_assoc, app_length. splits; auto. rewrite firstn_length in *. lia.
      + (* bulk_consume *)
        destruct HA as [(n & a1 & Hn & HF & -> & Hx1)|(n & e & a1 & HF & -> & Hx1)].
        * assert (Hle : length (firstn n buf) <= t_left a).
          { destruct (le_lt_dec (length (firstn n buf)) (t_left a)) as [|Hlt]; auto. exfalso.
            rewrite <- (firstn_skipn (t_left a) (firstn n buf)), m_feed_app in HF.
            rewrite failing_feed in HF by (rewrite firstn_length; lia). cbn [t_left] in HF.
            assert (Hsk : length (skipn (t_left a) (firstn n buf)) = length (firstn n buf) - t_left a) by apply skipn_length.
            destruct (skipn (t_left a) (firstn n buf)) as [|y ys]; cbn in Hsk; [lia|].
            cbn in HF. rewrite firstn_length, Nat.min_l, Nat.sub_diag in HF by lia. discriminate. }
          rewrite failing_feed in HF by exact Hle. injection HF as <- _. subst x1.
          destruct (IH _ _ _ eq_refl HR1) as (I1 & I2 & I3 & I4 & I5). cbn in *.
          rewrite I1, <- app_assoc, app_length. splits; auto. lia.
        * destruct (Hend _ Hx1) as [-> ->]. destruct buf as [|y buf]; [discriminate|].
          cbn [c_do] in HD. destruct (c_bulk_consume C (y :: buf) s) as [[s3 rb]| |] eqn:E1; cbn [bind] in HD; try discriminate.
          injection HD as <- ->. pose proof (@test_consumer_clean T F E default error s a k w y buf s3 e HR E1) as Hc. cbn in Hc, HF.
          destruct (t_left a) as [|m] eqn:El; cbn in Hc; [|discriminate]. injection HF as <- _ _.
          cbn. rewrite app_nil_r. splits; auto. rewrite El. lia.
  Qed.

  (** Only exposures advance the sizes. *)
  Ltac unbind H :=
    repeat match type of H with
    | bind ?o _ = Ret _ => let p := fresh "p" in let Eq := fresh "Eq" in
        destruct o as [p| |] eqn:Eq; cbn [bind] in H; [|discriminate H|discriminate H]; try destruct p
    | (match ?x with _ => _ end) = Ret _ => destruct x; cbn [bind] in H
    end.

  Lemma tc_yield_sizes : forall (s s' : test_consumer_state T F E), tc_maybe_yield s = Ret s' -> tc_sizes s' = tc_sizes s.
  Proof. intros s s' H. unfold tc_maybe_yield in H. unbind H; injection H as <-; reflexivity. Qed.

  Lemma tc_check_sizes : forall (s s' : test_consumer_state T F E) e, tc_check_error s = Ret (s', e) -> tc_sizes s' = tc_sizes s.
  Proof.
    intros s s' e H. unfold tc_check_error in H. destruct (tc_left s =? 0); [|injection H as <- _; reflexivity].
    unbind H; injection H as <- _; reflexivity.
  Qed.

  Lemma tc_sizes_consume : forall x (s s' : test_consumer_state T F E) r, test_consumer_consume default x s = Ret (s', r) -> tc_sizes s' = tc_sizes s.
  Proof.
    intros x s s' r H. unfold test_consumer_consume in H. unbind H; try discriminate; injection H as <- _;
      repeat match goal with
      | X : tc_maybe_yield _ = _ |- _ => apply tc_yield_sizes in X
      | X : tc_check_error _ = _ |- _ => apply tc_check_sizes in X
      end; cbn; congruence.
  Qed.
  Lemma tc_sizes_flush : forall s s' r, @test_consumer_flush T F E s = Ret (s', r) -> tc_sizes s' = tc_sizes s.
  Proof.
    intros s s' r H. unfold test_consumer_flush in H. unbind H; try discriminate; injection H as <- _;
      repeat match goal with
      | X : tc_maybe_yield _ = _ |- _ => apply tc_yield_sizes in X
      | X : tc_check_error _ = _ |- _ => apply tc_check_sizes in X
      end; cbn; congruence.
  Qed.
  Lemma tc_sizes_consume_slots : forall n s s' r, @test_consumer_consume_slots T F E n s = Ret (s', r) -> tc_sizes s' = tc_sizes s.
  Proof.
    intros n s s' r H. unfold test_consumer_consume_slots in H. unbind H; try discriminate; injection H as <- _;
      repeat match goal with
      | X : tc_maybe_yield _ = _ |- _ => apply tc_yield_sizes in X
      | X : tc_check_error _ = _ |- _ => apply tc_check_sizes in X
      end; cbn; congruence.
  Qed.

  Lemma tc_sizes_count : forall s x h s' x' a' k' w',
    c_rel (tc_rel error) (tc_end error) s x -> c_history C M s x h s' x' -> x' = CActive a' k' w' ->
    tc_sizes s' = sz_after (slot_exposures h) (tc_sizes s).
  Proof.
    intros s x h s' x' a' k' w' HR H Hx'.
    induction H as [s x|s x o s1 r x1 h s2 x2 HP HD HA HH IH].
    - subst x. symmetry. apply sz_after_0. apply HR.
    - assert (HR1 : c_rel (tc_rel error) (tc_end error) s1 x1).
      { destruct (@lawful_c_step _ _ _ _ _ _ _ _ _ o s x (test_consumer_lawful default error) HR HP) as (s1' & r' & x1' & HD' & HA' & HR1).
        rewrite HD in HD'. injection HD' as <- <-. now rewrite (c_answer_det default _ _ _ _ _ HA' HA) in HR1. }
      assert (Hna : forall a1, x1 <> CEnded a1).
      { intros a1 ->. inversion HH; subst; [congruence|]. match goal with X : c_permitted (CEnded _) _ |- _ => destruct X end. }
      destruct x as [a k w|a]; [|destruct HP]. cbn in HR.
      assert (Hsz : sz_ok (tc_sizes s)) by apply HR.
      assert (H0 : sz_after 0 (tc_sizes s) = tc_sizes s) by (apply sz_after_0; exact Hsz).
      assert (HEX : forall s3 n, test_consumer_expose default s = Ret (s3, Ok n) -> tc_sizes s3 = sz_after 1 (tc_sizes s)).
      { intros s3 n E1. destruct (t_left a) as [|m] eqn:El.
        - exfalso. destruct (tc_yield_ok HR) as (sy & Ey & HRy & _). unfold test_consumer_expose in E1. rewrite Ey in E1.
          cbn [bind] in E1. destruct (tc_check_err HRy El) as (s4 & E4 & _). rewrite E4 in E1. discriminate.
        - destruct (tc_expose_ok default HR) as (s4 & slots & _ & E4 & _ & _ & Hs4); [lia|]. rewrite E4 in E1. injection E1 as <- _. exact Hs4. }
      assert (Hs1 : tc_sizes s1 = sz_after (slot_exposures [(o, r)]) (tc_sizes s)).
      { destruct o; destruct r; cbn [c_answer] in HA; try contradiction; cbn [c_do] in HD; cbn [slot_exposures]; rewrite ?H0.
        - cbn in HD. destruct (test_consumer_consume default x s) as [[s3 r3]| |] eqn:E1; try discriminate. injection HD as <- _.
          eapply tc_sizes_consume; exact E1.
        - destruct HA as [_ HA]. exfalso. exact (Hna _ HA).
        - cbn in HD. destruct (test_consumer_flush s) as [[s3 r3]| |] eqn:E1; try discriminate. injection HD as <- _.
          eapply tc_sizes_flush; exact E1.
        - destruct HA as [(n & Hn & -> & _)|(e & a1 & _ & _ & HA)]; [|exfalso; exact (Hna _ HA)].
          cbn in HD. destruct (test_consumer_expose default s) as [[s3 r3]| |] eqn:E1; try discriminate. injection HD as <- ->.
          eapply HEX; reflexivity.
        - injection HD as <-. reflexivity.
        - cbn in HD. destruct (test_consumer_consume_slots n s) as [[s3 r3]| |] eqn:E1; try discriminate. injection HD as <- _.
          eapply tc_sizes_consume_slots; exact E1.
        - destruct HA as [(n & a1 & _ & _ & -> & _)|(n & e & a1 & _ & _ & HA)]; [|exfalso; exact (Hna _ HA)].
          cbn in HD. unfold default_bulk_consume in HD.
          destruct (test_consumer_expose default s) as [[s3 [slots|e]]| |] eqn:E1; cbn [bind] in HD; try discriminate.
          destruct (test_consumer_consume_slots _ _) as [[s4 r4]| |] eqn:E2 in HD; cbn [bind] in HD; try discriminate.
          destruct r4 as [[]|]; try discriminate. injection HD as <- _. rewrite (tc_sizes_consume_slots _ _ E2).
          exact (HEX s3 slots eq_refl). }
      rewrite (IH HR1 Hx'), Hs1.
      assert (slot_exposures ((o, r) :: h) = slot_exposures [(o, r)] + slot_exposures h) as ->
        by (destruct r as [|[|]|[|]|]; reflexivity).
      apply sz_after_add. exact Hsz.
  Qed.

  (** When no more items are accepted, every call fails. *)
  Lemma tc_all_fail : forall s a k w, tc_rel error s a k w -> t_left a = 0 ->
    (forall x, exists s', c_consume C x s = Ret (s', Err error)) /\
    (forall f, exists s', c_close C f s = Ret (s', Err error)) /\
    (exists s', c_flush C s = Ret (s', Err error)) /\
    (exists s', c_expose C s = Ret (s', Err error)) /\
    (forall n, exists s', c_consume_slots C n s = Ret (s', Err error)) /\
    (forall buf, exists s', c_bulk_consume C buf s = Ret (s', Err error)).
  Proof.
    intros s a k w HR El. destruct (tc_yield_ok HR) as (sy & Ey & HRy & _).
    destruct (tc_check_err HRy El) as (s4 & E4 & _).
    splits; intros; exists s4;
      cbn [test_consumer bulk_consumer_of c_buffered c_consumer c_consume c_close c_flush c_expose c_write c_consume_slots c_bulk_consume];
      unfold default_bulk_consume, test_consumer_consume, test_consumer_close, test_consumer_flush, test_consumer_expose, test_consumer_consume_slots;
      rewrite Ey; cbn [bind]; rewrite E4; reflexivity.
  Qed.
End TestConsumerHistory.

Lemma await_all_ok : forall n y, y_ok y ->
  exists ks y', length ks = n /\ Forall (fun k => k < length (y_pattern y)) ks /\
    await_all n y = Ret y' /\
    poll_trace (length (concat (map pending_then_ready ks))) y = Ret (y', concat (map pending_then_ready ks)).
Proof.
  assert (HT : forall n m y, poll_trace (n + m) y =
    let* (y, b1) := poll_trace n y in let* (y, b2) := poll_trace m y in Ret (y, b1 ++ b2)).
  { induction n as [|n IH]; intros m y; cbn [poll_trace plus].
    - cbn. destruct (poll_trace m y) as [[]| |]; reflexivity.
    - destruct (yielder_poll y) as [[y1 b]| |]; cbn [bind]; auto. rewrite IH.
      destruct (poll_trace n y1) as [[y2 b1]| |]; cbn [bind]; auto.
      destruct (poll_trace m y2) as [[y3 b2]| |]; cbn [bind]; auto. }
  induction n as [|n IH]; intros y Hy.
  - exists [], y. cbn. auto.
  - destruct (await_total Hy) as (k & y1 & Hk & E1 & Hy1 & Hp & Ht).
    destruct (IH y1 Hy1) as (ks & y2 & Hl & Hf & E2 & Ht2).
    exists (k :: ks), y2. cbn [length map concat await_all]. splits; auto.
    + constructor; auto. now rewrite <- Hp.
    + rewrite E1. exact E2.
    + rewrite app_length, HT. unfold pending_then_ready at 1. rewrite app_length, repeat_length. cbn [length].
      rewrite Ht. cbn [bind]. rewrite Ht2. reflexivity.
Qed.

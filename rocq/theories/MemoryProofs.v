(** Proofs about memory. *)
From Coq Require Import Bool List Arith Lia Init.Byte.
From Verif Require Import Prelude Traits ListFacts Contracts BasicModel BasicSpec BasicProofs QueueModel AdaptorSpec ScramblerModel
  ScramblerProofs FuzzModel FuzzProofs FuzzScramblerProofs CodecModel CodecSpec EndianModel
  EndianProofs ContractFacts MemoryModel MemorySpec.
Import ListNotations.
Set Implicit Arguments.

Lemma map_const : forall A B (b : B) (l : list A), map (fun _ => b) l = repeat b (length l).
Proof. induction l; cbn; congruence. Qed.

Section IntoVec.
  Context {A T : Type} (L : allocator A) (d : T).

  Lemma resize_more : forall n f (v : vec T) a, length (vec_items v) < n ->
    vec_resize_with L n f v a =
    (if n <=? vec_capacity v then Ret (a, mk_vec (vec_items v ++ map f (seq 0 (n - length (vec_items v)))) (vec_capacity v))
     else match snd (al_grow L (vec_capacity v) n a) with
          | Some k => Ret (fst (al_grow L (vec_capacity v) n a), mk_vec (vec_items v ++ map f (seq 0 (n - length (vec_items v)))) k)
          | None => Panic
          end).
  Proof.
    intros n f v a H. unfold vec_resize_with. destruct (Nat.eqb_spec (n - length (vec_items v)) 0); [lia|].
    destruct (n <=? vec_capacity v); [reflexivity|]. destruct (al_grow L (vec_capacity v) n a) as [a' [k|]]; reflexivity.
  Qed.

  Lemma resize_means : forall n f (v : vec T) a a' v', vec_resize_with L n f v a = Ret (a', v') ->
    vec_items v' = firstn n (vec_items v) ++ map f (seq 0 (n - length (vec_items v))) /\
    (n <= vec_capacity v -> a' = a /\ vec_capacity v' = vec_capacity v) /\
    (gives_enough L -> length (vec_items v) <= vec_capacity v -> length (vec_items v') <= vec_capacity v').
  Proof.
    intros n f v a a' v'. unfold vec_resize_with. destruct (Nat.eqb_spec (n - length (vec_items v)) 0) as [E|E].
    - intros [= <- <-]. rewrite E. cbn [vec_truncate vec_items vec_capacity seq map]. rewrite app_nil_r, firstn_length.
      split; [reflexivity|]. split; [auto|lia].
    - rewrite (firstn_all2 (n := n)) by lia. destruct (Nat.leb_spec n (vec_capacity v)) as [Hn|Hn].
      + intros [= <- <-]. cbn [vec_items vec_capacity]. rewrite app_length, map_length, seq_length. split; [reflexivity|]. split; [auto|lia].
      + destruct (al_grow L (vec_capacity v) n a) as [a1 [k|]] eqn:Eg; cbn [expect bind]; [|discriminate]. intros [= <- <-].
        cbn [vec_items vec_capacity]. rewrite app_length, map_length, seq_length. split; [reflexivity|]. split; [lia|].
        intros HG _. assert (Hk : n <= k) by (apply (@ge_grow _ _ HG (vec_capacity v) n a); now rewrite Eg). lia.
  Qed.

  (** The new state of [make_space_if_needed]. *)
  Definition grown (s : mem_into_vec A T) (a : A) (k : nat) : mem_into_vec A T :=
    mk_miv (mk_vec (resize_default d (mi_consumed s * 2 + 1) (vec_items (mi_v s))) k) (mi_consumed s) a.

  Lemma make_space_cases : forall s : mem_into_vec A T,
    (mi_consumed s <> length (vec_items (mi_v s)) /\ miv_make_space_if_needed L d s = Ret s) \/
    (mi_consumed s = length (vec_items (mi_v s)) /\ mi_consumed s * 2 + 1 <= vec_capacity (mi_v s) /\
     miv_make_space_if_needed L d s = Ret (grown s (mi_mem s) (vec_capacity (mi_v s)))) \/
    (exists k, mi_consumed s = length (vec_items (mi_v s)) /\ vec_capacity (mi_v s) < mi_consumed s * 2 + 1 /\
     snd (al_grow L (vec_capacity (mi_v s)) (mi_consumed s * 2 + 1) (mi_mem s)) = Some k /\
     miv_make_space_if_needed L d s = Ret (grown s (fst (al_grow L (vec_capacity (mi_v s)) (mi_consumed s * 2 + 1) (mi_mem s))) k)) \/
    (refused L s /\ miv_make_space_if_needed L d s = Panic).
  Proof.
    intros s. unfold miv_make_space_if_needed.
    destruct (Nat.eqb_spec (mi_consumed s) (length (vec_items (mi_v s)))) as [E|N]; [|now left].
    rewrite resize_more by lia.
    assert (Er : vec_items (mi_v s) ++ map (fun _ => d) (seq 0 (mi_consumed s * 2 + 1 - length (vec_items (mi_v s))))
                 = resize_default d (mi_consumed s * 2 + 1) (vec_items (mi_v s))).
    { unfold resize_default. rewrite map_const, seq_length, firstn_all2 by lia. reflexivity. }
    rewrite Er. destruct (Nat.leb_spec (mi_consumed s * 2 + 1) (vec_capacity (mi_v s))) as [Hc|Hc].
    - right. left. auto.
    - right. right. destruct (snd (al_grow L (vec_capacity (mi_v s)) (mi_consumed s * 2 + 1) (mi_mem s))) as [k|] eqn:Eg.
      + left. exists k. auto.
      + right. unfold refused. auto.
  Qed.

  Lemma plain_grown : forall s a k, mi_consumed s = length (vec_items (mi_v s)) ->
    plain (grown s a k) = into_vec_make_space_if_needed d (plain s).
  Proof.
    intros s a k H. unfold plain, grown, into_vec_make_space_if_needed. cbn [mi_v mi_consumed vec_items iv_v iv_consumed].
    destruct (Nat.eqb_spec (mi_consumed s) (length (vec_items (mi_v s)))); [reflexivity|contradiction].
  Qed.

  (** Making space does the same with and without memory, unless it is refused. *)
  Lemma make_space_plain : forall s,
    match miv_make_space_if_needed L d s with
    | Ret s' => plain s' = into_vec_make_space_if_needed d (plain s)
    | Panic => refused L s
    | NoFuel => False
    end.
  Proof.
    intros s. destruct (make_space_cases s) as [[H E]|[(H & Hc & E)|[(k & H & Hc & Hg & E)|[H E]]]]; rewrite E; auto.
    - unfold into_vec_make_space_if_needed. cbn. destruct (Nat.eqb_spec (mi_consumed s) (length (vec_items (mi_v s)))); [contradiction|reflexivity].
    - now apply plain_grown.
    - now apply plain_grown.
  Qed.

  Lemma refused_panics : forall s, refused L s -> miv_make_space_if_needed L d s = Panic.
  Proof.
    intros s (H & Hc & Hg). destruct (make_space_cases s) as [[H' E]|[(H' & Hc' & E)|[(k & H' & Hc' & Hg' & E)|[H' E]]]]; auto; try lia.
    congruence.
  Qed.

  Lemma expose_plain : forall s,
    match miv_expose L d s with
    | Ret (s', r) => into_vec_expose d (plain s) = Ret (plain s', r)
    | Panic => into_vec_expose d (plain s) = Panic \/ refused L s
    | NoFuel => False
    end.
  Proof.
    intros s. pose proof (make_space_plain s) as HM. unfold miv_expose, into_vec_expose.
    destruct (miv_make_space_if_needed L d s) as [s1| |]; cbn [bind]; auto.
    rewrite <- HM. cbn [plain iv_v iv_consumed]. unfold slice_from.
    destruct (length (vec_items (mi_v s1)) <? mi_consumed s1); cbn [bind]; auto.
  Qed.

  Lemma do_plain : forall o s,
    match c_do (miv_consumer L d) o s with
    | Ret (s', r) => c_do (into_vec_consumer d) o (plain s) = Ret (plain s', r)
    | Panic => c_do (into_vec_consumer d) o (plain s) = Panic \/ asks o = true /\ refused L s
    | NoFuel => False
    end.
  Proof.
    intros o s. pose proof (make_space_plain s) as HM. pose proof (expose_plain s) as HE.
    destruct o as [x|f| | |ys|n|buf];
      cbn [c_do miv_consumer into_vec_consumer bulk_consumer_of c_consume c_close c_flush c_expose c_write c_consume_slots c_bulk_consume
           c_buffered c_consumer asks]; try reflexivity.
    - unfold miv_consume, into_vec_consume. destruct (miv_make_space_if_needed L d s) as [s1| |]; cbn [bind]; auto.
      rewrite <- HM. cbn [plain iv_v iv_consumed]. unfold index_set.
      destruct (mi_consumed s1 <? length (vec_items (mi_v s1))); cbn [bind]; auto.
    - destruct (miv_expose L d s) as [[s1 r]| |]; cbn [bind]; auto.
      + rewrite HE. reflexivity.
      + destruct HE as [->|H]; auto.
    - unfold default_bulk_consume. destruct (miv_expose L d s) as [[s1 [k|[]]]| |]; cbn [bind]; auto.
      + rewrite HE. cbn [bind miv_consume_slots into_vec_consume_slots]. reflexivity.
      + destruct HE as [->|H]; auto.
  Qed.

  Lemma do_refused : forall o s, asks o = true -> refused L s -> c_do (miv_consumer L d) o s = Panic.
  Proof.
    intros o s Ho Hr. apply refused_panics in Hr.
    destruct o as [x|f| | |ys|n|buf]; try discriminate;
      cbn [c_do miv_consumer bulk_consumer_of c_consume c_expose c_bulk_consume c_buffered c_consumer];
      unfold miv_consume, default_bulk_consume, miv_expose; rewrite Hr; reflexivity.
  Qed.

  (** ** Whole executions *)
  Lemma trace_plain : forall h s s', c_trace (miv_consumer L d) s h s' -> c_trace (into_vec_consumer d) (plain s) h (plain s').
  Proof.
    intros h s s' H. induction H as [s|s o s1 r h s' E _ IH]; [constructor|].
    pose proof (do_plain o s) as HD. rewrite E in HD. econstructor; eauto.
  Qed.

  Lemma trace_memory : never_refuses L -> forall h s t, c_trace (into_vec_consumer d) (plain s) h t ->
    exists s', c_trace (miv_consumer L d) s h s' /\ plain s' = t.
  Proof.
    intros HN h s t H. remember (plain s) as p eqn:Ep. revert s Ep.
    induction H as [p|p o p1 r h t E _ IH]; intros s ->; [exists s; split; [constructor|reflexivity]|].
    pose proof (do_plain o s) as HD. destruct (c_do (miv_consumer L d) o s) as [[s1 r1]| |] eqn:Es; [| |contradiction].
    - rewrite E in HD. injection HD as -> ->. destruct (IH s1 eq_refl) as (s' & H1 & H2). exists s'. split; auto. econstructor; eauto.
    - exfalso. destruct HD as [HD|[_ (_ & _ & Hg)]]; [congruence|]. exact (nr_grow HN _ _ _ Hg).
  Qed.

  (** ** Capacity *)
  Lemma make_space_cap : gives_enough L -> forall s s', miv_make_space_if_needed L d s = Ret s' ->
    vec_capacity (mi_v s) <= vec_capacity (mi_v s') /\
    (length (vec_items (mi_v s)) <= vec_capacity (mi_v s) -> length (vec_items (mi_v s')) <= vec_capacity (mi_v s')).
  Proof.
    intros HG s s' E. destruct (make_space_cases s) as [[H E']|[(H & Hc & E')|[(k & H & Hc & Hg & E')|[H E']]]];
      rewrite E' in E; try discriminate; injection E as <-; cbn [grown mi_v vec_capacity vec_items]; rewrite ?length_resize.
    - auto.
    - split; lia.
    - apply (ge_grow HG) in Hg. split; lia.
  Qed.

  Lemma do_cap : gives_enough L -> forall o s s' r, c_do (miv_consumer L d) o s = Ret (s', r) ->
    vec_capacity (mi_v s) <= vec_capacity (mi_v s').
  Proof.
    intros HG o s s' r. destruct o as [x|f| | |ys|n|buf];
      cbn [c_do miv_consumer bulk_consumer_of c_consume c_close c_flush c_expose c_write c_consume_slots c_bulk_consume
           c_buffered c_consumer]; try (intros [= <- _]; auto).
    - unfold miv_consume. destruct (miv_make_space_if_needed L d s) as [s1| |] eqn:E1; cbn [bind]; try discriminate.
      destruct (index_set _ _ _); cbn [bind]; try discriminate. intros [= <- _]. exact (proj1 (make_space_cap HG _ E1)).
    - unfold miv_expose. destruct (miv_make_space_if_needed L d s) as [s1| |] eqn:E1; cbn [bind]; try discriminate.
      destruct (slice_from _ _); cbn [bind]; try discriminate. intros [= <- _]. exact (proj1 (make_space_cap HG _ E1)).
    - unfold default_bulk_consume, miv_expose. destruct (miv_make_space_if_needed L d s) as [s1| |] eqn:E1; cbn [bind]; try discriminate.
      destruct (slice_from _ _); cbn [bind]; try discriminate. intros [= <- _]. exact (proj1 (make_space_cap HG _ E1)).
  Qed.

  Lemma trace_cap : gives_enough L -> forall h s s', c_trace (miv_consumer L d) s h s' ->
    vec_capacity (mi_v s) <= vec_capacity (miv_into_vec s').
  Proof.
    intros HG h s s' H. change (vec_capacity (miv_into_vec s')) with (vec_capacity (mi_v s')).
    induction H as [s|s o s1 r h s' E _ IH]; [auto|]. apply (do_cap HG) in E. lia.
  Qed.

  (** ** The contract *)
  Definition miv_rel (c : nat) (s : mem_into_vec A T) (log : list T) (k : nat) (w : list T) : Prop :=
    iv_rel (plain s) log k w /\ c <= vec_capacity (mi_v s).
  Definition miv_end (c : nat) (s : mem_into_vec A T) (log : list T) : Prop :=
    iv_end (plain s) log /\ c <= vec_capacity (mi_v s).

  Lemma miv_core : gives_enough L -> never_refuses L -> forall c,
    lawful_consumer_core (miv_consumer L d) (collect_machine T unit infallible) (miv_rel c) (miv_end c).
  Proof.
    intros HG HN c. pose proof (into_vec_core d) as LC.
    assert (step : forall o s s' r, c_do (into_vec_consumer d) o (plain s) = Ret (s', r) -> c <= vec_capacity (mi_v s) ->
      exists t, c_do (miv_consumer L d) o s = Ret (t, r) /\ plain t = s' /\ c <= vec_capacity (mi_v t)).
    { intros o s s' r E Hc. pose proof (do_plain o s) as HD.
      destruct (c_do (miv_consumer L d) o s) as [[t r1]| |] eqn:Es; [| |contradiction].
      - rewrite E in HD. injection HD as -> ->. exists t. apply (do_cap HG) in Es. splits; auto. lia.
      - exfalso. destruct HD as [HD|[_ (_ & _ & Hg)]]; [congruence|]. exact (nr_grow HN _ _ _ Hg). }
    constructor.
    - intros s a k w [H _]. exact (lc_wf LC H).
    - intros s a k w [H Hc]. split; [exact (lc_forget LC H)|exact Hc].
    - intros s a k w x [H Hc]. destruct (lc_consume LC x H) as (s' & E & H').
      destruct (step (CConsume x) s s' (CAUnit (Ok tt))) as (t & Et & <- & Ht); [cbn [c_do]; rewrite E; reflexivity|exact Hc|].
      cbn [c_do] in Et. destruct (c_consume (miv_consumer L d) x s) as [[t1 r1]| |]; try discriminate.
      cbn [bind] in Et. injection Et as -> ->. exists t. split; [reflexivity|]. split; assumption.
    - intros s a k w f [H Hc]. exists s. split; [reflexivity|]. split; [exact (lc_forget LC H)|exact Hc].
    - intros s a k w [H Hc]. exists s. split; [reflexivity|]. split; assumption.
    - intros s a k w [H Hc]. left. destruct (lc_expose LC H) as [(s' & n & E & Hn & H')|(s' & [] & _)].
      destruct (step CExpose s s' (CASlots (Ok n))) as (t & Et & <- & Ht); [cbn [c_do]; rewrite E; reflexivity|exact Hc|].
      cbn [c_do] in Et. destruct (c_expose (miv_consumer L d) s) as [[t1 r1]| |]; try discriminate.
      cbn [bind] in Et. injection Et as -> ->. exists t, n. splits; auto. split; assumption.
    - intros s a k w ys [H Hc] Hy. split; [exact (lc_write LC ys H Hy)|exact Hc].
    - intros s a k w n [H Hc] Hk Hn. pose proof (lc_consume_slots LC n H Hk Hn) as HC. rewrite collect_feed in *.
      destruct HC as (s' & E & H'). injection E as <-. eexists. split; [reflexivity|]. split; [exact H'|exact Hc].
  Qed.

  Lemma miv_with_capacity_ok : gives_enough L -> never_refuses L -> forall c a,
    exists s, miv_with_capacity L c a = Ret s /\ plain s = @into_vec_with_capacity T c /\ c <= vec_capacity (mi_v s).
  Proof.
    intros HG HN c a. unfold miv_with_capacity, vec_with_capacity, vec_try_with_capacity.
    destruct (Nat.eqb_spec c 0) as [->|Hc]; [eexists; cbn; splits; eauto|].
    pose proof (nr_fresh HN c a) as H1. pose proof (ge_fresh HG c a) as H2.
    destruct (al_fresh L c a) as [a' [k|]]; [|exfalso; now apply H1].
    cbn. eexists. splits; try reflexivity. cbn. now apply H2.
  Qed.
End IntoVec.
Arguments make_space_cases {A T} L d s.

(** ** Slots, and what is asked for *)
Section Requests.
  Context {A T : Type} (L : allocator A) (d : T).
  Notation state := (mem_into_vec (A * list request) T).
  Notation len s := (length (vec_items (mi_v s))).

  (** [m] items at the start, [k] slots on display, and [rs] asked for since. *)
  Definition growing (m : nat) (log0 : list request) (s : state) (k : nat) : Prop :=
    m <= mi_consumed s /\ mi_consumed s + k <= len s /\ len s <= mi_consumed s * 2 + 1 /\
    exists rs, snd (mi_mem s) = log0 ++ map Grow rs /\ (m + 1) * 2 ^ length rs <= len s + 1 /\
      Forall (fun r => r <= len s) rs /\ list_sum rs <= 2 * len s.

  Lemma growing_less : forall m log0 s k k', growing m log0 s k -> k' <= k -> growing m log0 s k'.
  Proof. intros m log0 s k k' (H1 & H2 & H3 & H4) Hk. split; [lia|]. split; [lia|]. split; [lia|exact H4]. Qed.

  Lemma growing_consumed : forall m log0 (s : state) v' k n, growing m log0 s k -> n <= k -> length (vec_items v') = len s ->
    growing m log0 (mk_miv v' (mi_consumed s + n) (mi_mem s)) (k - n).
  Proof.
    intros m log0 s v' k n (H1 & H2 & H3 & H4) Hn Hv. unfold growing. cbn [mi_v mi_consumed mi_mem]. rewrite Hv.
    split; [lia|]. split; [lia|]. split; [lia|exact H4].
  Qed.

  Lemma growing_make_space : forall m log0 s k s', growing m log0 s k ->
    miv_make_space_if_needed (recorded L) d s = Ret s' -> mi_consumed s' < len s' /\ growing m log0 s' (len s' - mi_consumed s').
  Proof.
    intros m log0 s k s' (H1 & H2 & H3 & rs & Er & Hp & HF & Hs) E.
    destruct (make_space_cases (recorded L) d s) as [[H E']|[(H & Hc & E')|[(j & H & Hc & Hg & E')|[H E']]]];
      rewrite E' in E; try discriminate; injection E as <-.
    - split; [lia|]. split; [lia|]. split; [lia|]. split; [lia|]. exists rs. auto.
    - unfold growing, grown. cbn [mi_v mi_consumed mi_mem vec_items]. rewrite length_resize.
      split; [lia|]. split; [lia|]. split; [lia|]. split; [lia|]. exists rs.
      split; [exact Er|]. split; [lia|]. split; [|lia].
      eapply Forall_impl; [|exact HF]. cbn. intros; lia.
    - unfold growing, grown. cbn [mi_v mi_consumed mi_mem vec_items]. rewrite length_resize.
      split; [lia|]. split; [lia|]. split; [lia|]. split; [lia|]. exists (rs ++ [mi_consumed s * 2 + 1]). split.
      + cbn [recorded al_grow]. destruct (al_grow L _ _ _) as [a' r]. cbn [fst snd]. rewrite Er, map_app, app_assoc. reflexivity.
      + rewrite app_length, list_sum_app. cbn [length list_sum fold_right]. rewrite Nat.pow_add_r. cbn [Nat.pow]. split; [nia|]. split; [|lia].
        apply Forall_app. split; [|repeat constructor; lia]. eapply Forall_impl; [|exact HF]. cbn. intros; lia.
  Qed.

  Definition allowed {F} (k : nat) (o : cop T F) : Prop :=
    match o with CWrite ys => length ys <= k | CConsumeSlots n => n <= k | _ => True end.

  Lemma growing_do : forall m log0 o s k s' r, growing m log0 s k -> allowed k o ->
    c_do (miv_consumer (recorded L) d) o s = Ret (s', r) -> growing m log0 s' (c_shown k o r).
  Proof.
    intros m log0 o s k s' r HG. pose proof (fun s' => @growing_make_space m log0 s k s' HG) as HM.
    destruct o as [x|f| | |ys|n|buf]; cbn [allowed]; intros Ha;
      cbn [c_do miv_consumer bulk_consumer_of c_consume c_close c_flush c_expose c_write c_consume_slots c_bulk_consume
           c_buffered c_consumer].
    - unfold miv_consume. destruct (miv_make_space_if_needed (recorded L) d s) as [s1| |]; cbn [bind]; try discriminate.
      destruct (HM _ eq_refl) as [Hl HG1]. rewrite index_set_ok by lia. cbn [bind]. intros [= <- <-]. cbn [c_shown].
      eapply growing_less; [apply (@growing_consumed m log0 s1 _ (len s1 - mi_consumed s1) 1); [exact HG1|lia|]|lia].
      cbn [vec_items]. rewrite length_blit; cbn [length]; lia.
    - intros [= <- <-]. eapply growing_less; [exact HG|cbn; lia].
    - intros [= <- <-]. exact HG.
    - unfold miv_expose. destruct (miv_make_space_if_needed (recorded L) d s) as [s1| |]; cbn [bind]; try discriminate.
      destruct (HM _ eq_refl) as [Hl HG1]. rewrite slice_from_ok by lia. cbn [bind]. intros [= <- <-]. cbn [c_shown].
      rewrite skipn_length. exact HG1.
    - intros [= <- <-]. cbn [c_shown]. unfold miv_write. rewrite <- (Nat.add_0_r (mi_consumed s)) at 2. rewrite <- (Nat.sub_0_r k).
      apply growing_consumed; [exact HG|lia|]. cbn [vec_items]. destruct HG as (_ & H2 & _). rewrite length_blit by lia. reflexivity.
    - intros [= <- <-]. cbn [c_shown]. apply growing_consumed; auto.
    - unfold default_bulk_consume, miv_expose. destruct (miv_make_space_if_needed (recorded L) d s) as [s1| |]; cbn [bind]; try discriminate.
      destruct (HM _ eq_refl) as [Hl HG1]. rewrite slice_from_ok by lia. cbn [bind]. rewrite skipn_length.
      set (n := Nat.min (len s1 - mi_consumed s1) (length buf)). intros [= <- <-]. cbn [c_shown].
      eapply growing_less; [apply (@growing_consumed m log0 s1 _ (len s1 - mi_consumed s1) n); [exact HG1|lia|]|lia].
      cbn [miv_write mi_v vec_items]. rewrite length_blit; [reflexivity|]. rewrite firstn_length. lia.
  Qed.

  Lemma growing_trace : forall m log0 h s s', c_trace (miv_consumer (recorded L) d) s h s' -> forall k, growing m log0 s k -> c_rules k h ->
    growing m log0 s' 0.
  Proof.
    intros m log0 h s s' H. induction H as [s|s o s1 r h s' E Ht IH]; intros k HG HR.
    - eapply growing_less; [exact HG|lia].
    - cbn [c_rules] in HR. destruct HR as [Ha HR]. pose proof (growing_do o HG Ha E) as HG1.
      destruct (c_ends o r); [|exact (IH _ HG1 HR)]. subst h. inversion Ht; subst. eapply growing_less; [exact HG1|lia].
  Qed.

  Lemma requests : forall v a log0 h s', c_trace (miv_consumer (recorded L) d) (miv_from_vec v (a, log0)) h s' -> c_rules 0 h ->
    exists rs, snd (mi_mem s') = log0 ++ map Grow rs /\
      (length (vec_items v) + 1) * 2 ^ length rs <= 2 * (length (vec_items (miv_into_vec s')) + 1) /\
      Forall (fun r => r <= 2 * length (vec_items (miv_into_vec s')) + 1) rs /\
      list_sum rs <= 4 * length (vec_items (miv_into_vec s')) + 2.
  Proof.
    intros v a log0 h s' H HR.
    assert (HG : growing (length (vec_items v)) log0 (miv_from_vec v (a, log0)) 0).
    { unfold growing. cbn [miv_from_vec mi_v mi_consumed mi_mem snd]. split; [lia|]. split; [lia|]. split; [lia|]. exists [].
      rewrite app_nil_r. cbn. splits; auto; lia. }
    apply (growing_trace H HG) in HR as (H1 & H2 & H3 & rs & Er & Hp & HF & Hs).
    cbn [miv_into_vec vec_truncate vec_items]. rewrite firstn_length. exists rs.
    split; [exact Er|]. split; [lia|]. split; [|lia]. eapply Forall_impl; [|exact HF]. cbn. intros; lia.
  Qed.

  (** *** Filling without exposing slots *)
  Definition doubling (c : nat) (log0 : list request) (n : nat) (s : state) : Prop :=
    mi_consumed s = n /\ n <= len s /\ len s <= 2 * n /\ (exists j, len s + 1 = 2 ^ j) /\
    ((snd (mi_mem s) = log0 /\ vec_capacity (mi_v s) = c /\ len s <= c) \/
     ((exists m rs, snd (mi_mem s) = log0 ++ Grow m :: rs) /\ c < len s)).

  Lemma doubling_make_space : forall c log0 n s s', doubling c log0 n s -> miv_make_space_if_needed (recorded L) d s = Ret s' ->
    mi_consumed s' = n /\ n < len s' /\ len s' <= 2 * n + 1 /\ (exists j, len s' + 1 = 2 ^ j) /\
    ((snd (mi_mem s') = log0 /\ vec_capacity (mi_v s') = c /\ len s' <= c) \/
     ((exists m rs, snd (mi_mem s') = log0 ++ Grow m :: rs) /\ c < len s')).
  Proof.
    intros c log0 n s s' (Hn & H1 & H2 & [j Hj] & HD) Es.
    destruct (make_space_cases (recorded L) d s) as [[H E]|[(H & Hc & E)|[(i & H & Hc & Hg & E)|[H E]]]]; rewrite E in Es;
      try discriminate; injection Es as <-.
    - split; [lia|]. split; [lia|]. split; [lia|]. split; [exists j; exact Hj|exact HD].
    - cbn [grown mi_v mi_consumed mi_mem vec_items vec_capacity]. rewrite length_resize.
      split; [lia|]. split; [lia|]. split; [lia|]. split; [exists (Datatypes.S j); cbn [Nat.pow]; lia|].
      destruct HD as [(D1 & D2 & D3)|(D1 & D2)]; [left|right]; split; auto; lia.
    - cbn [grown mi_v mi_consumed mi_mem vec_items vec_capacity]. rewrite length_resize.
      split; [lia|]. split; [lia|]. split; [lia|]. split; [exists (Datatypes.S j); cbn [Nat.pow]; lia|].
      right. cbn [recorded al_grow]. destruct (al_grow L _ _ _) as [a' q]. cbn [fst snd].
      destruct HD as [(D1 & D2 & D3)|((m & rs & D1) & D2)]; rewrite D1; (split; [|lia]); eexists; eexists; [reflexivity|].
      rewrite <- app_assoc. reflexivity.
  Qed.

  Lemma doubling_consume : forall c log0 n x s s' r, doubling c log0 n s -> miv_consume (recorded L) d x s = Ret (s', r) ->
    r = Ok tt /\ doubling c log0 (n + 1) s'.
  Proof.
    intros c log0 n x s s' r HD. pose proof (fun s' => @doubling_make_space c log0 n s s' HD) as HM. unfold miv_consume.
    destruct (miv_make_space_if_needed (recorded L) d s) as [s1| |]; cbn [bind]; try discriminate.
    destruct (HM _ eq_refl) as (Hn & H1 & H2 & Hj & H). rewrite index_set_ok by lia. cbn [bind]. intros [= <- <-].
    split; [reflexivity|]. unfold doubling. cbn [mi_v mi_consumed mi_mem vec_items vec_capacity].
    rewrite length_blit by (cbn [length]; lia). split; [lia|]. split; [lia|]. split; [lia|]. split; [exact Hj|exact H].
  Qed.

  Lemma doubling_bulk : forall c log0 n buf s s' r, doubling c log0 n s -> buf <> [] ->
    c_bulk_consume (miv_consumer (recorded L) d) buf s = Ret (s', r) ->
    exists m, r = Ok m /\ 1 <= m <= length buf /\ doubling c log0 (n + m) s'.
  Proof.
    intros c log0 n buf s s' r HD Hb. pose proof (fun s' => @doubling_make_space c log0 n s s' HD) as HM.
    cbn [c_bulk_consume miv_consumer bulk_consumer_of]. unfold default_bulk_consume, miv_expose.
    destruct (miv_make_space_if_needed (recorded L) d s) as [s1| |]; cbn [bind]; try discriminate.
    destruct (HM _ eq_refl) as (Hn & H1 & H2 & Hj & H). rewrite slice_from_ok by lia. cbn [bind]. rewrite skipn_length.
    assert (1 <= length buf) by (destruct buf; [contradiction|cbn; lia]).
    set (m := Nat.min (len s1 - mi_consumed s1) (length buf)). cbn [miv_consume_slots bind]. intros [= <- <-].
    exists m. split; [reflexivity|]. split; [lia|]. unfold doubling. cbn [miv_write mi_v mi_consumed mi_mem vec_items vec_capacity].
    rewrite length_blit by (rewrite firstn_length; lia).
    split; [lia|]. split; [lia|]. split; [lia|]. split; [exact Hj|exact H].
  Qed.

  Lemma doubling_fill : forall c log0 h s s', c_trace (miv_consumer (recorded L) d) s h s' -> Forall (fun x => filling (fst x)) h ->
    forall n, doubling c log0 n s -> doubling c log0 (n + length (c_consumed [] h)) s'.
  Proof.
    intros c log0 h s s' H. induction H as [s|s o s1 r h s' E Ht IH]; intros HF n HD.
    - cbn. now rewrite Nat.add_0_r.
    - inversion HF as [|? ? Ho HF']; subst. cbn [fst] in Ho. destruct o as [x|f| | |ys|m|buf]; try contradiction; cbn [c_do] in E.
      + cbn [miv_consumer bulk_consumer_of c_consume c_buffered c_consumer] in E.
        destruct (miv_consume (recorded L) d x s) as [[s2 r2]| |] eqn:E2; cbn [bind] in E; try discriminate. injection E as -> <-.
        destruct (doubling_consume x HD E2) as [-> HD1]. cbn [c_consumed length]. rewrite Nat.add_succ_r, <- Nat.add_succ_l.
        rewrite <- Nat.add_1_r. exact (IH HF' _ HD1).
      + injection E as <- <-. cbn [c_consumed]. exact (IH HF' _ HD).
      + destruct (c_bulk_consume (miv_consumer (recorded L) d) buf s) as [[s2 r2]| |] eqn:E2; cbn [bind] in E; try discriminate.
        injection E as -> <-. destruct (doubling_bulk HD Ho E2) as (m & -> & Hm & HD1). cbn [c_consumed].
        rewrite app_length, firstn_length, Nat.min_l by lia. rewrite Nat.add_assoc. exact (IH HF' _ HD1).
  Qed.

  Lemma doubling_loop : forall c log0 fuel buf i n s s' r, doubling c log0 n s -> i <= length buf ->
    bulk_consume_full_slice_loop fuel (miv_consumer (recorded L) d) i buf s = Ret (s', r) ->
    doubling c log0 (n + (length buf - i)) s'.
  Proof.
    induction fuel as [|fuel IH]; intros buf i n s s' r HD Hi; cbn [bulk_consume_full_slice_loop]; [discriminate|].
    destruct (Nat.ltb_spec i (length buf)) as [Hl|Hl].
    - rewrite slice_from_ok by lia. cbn [bind].
      assert (Hne : skipn i buf <> []) by (intros H; apply (f_equal (@length T)) in H; rewrite skipn_length in H; cbn in H; lia).
      destruct (c_bulk_consume (miv_consumer (recorded L) d) (skipn i buf) s) as [[s1 r1]| |] eqn:E1; cbn [bind]; try discriminate.
      destruct (doubling_bulk HD Hne E1) as (m & -> & Hm & HD1). rewrite skipn_length in Hm. intros E.
      apply (IH buf (i + m) _ _ _ _ HD1) in E; [|lia]. now replace (n + (length buf - i)) with (n + m + (length buf - (i + m))) by lia.
    - intros [= <- <-]. now replace (n + (length buf - i)) with n by lia.
  Qed.

  Lemma with_capacity_exact : forall c a log0 (s : state), miv_with_capacity (recorded L) c (a, log0) = Ret s -> vec_capacity (mi_v s) = c ->
    s = miv_from_vec (mk_vec [] c) (mi_mem s).
  Proof.
    intros c a log0 s. unfold miv_with_capacity, vec_with_capacity, vec_try_with_capacity. destruct (Nat.eqb_spec c 0) as [->|Hc].
    - intros [= <-] _. reflexivity.
    - destruct (al_fresh (recorded L) c (a, log0)) as [a' [k|]]; cbn [bind expect]; try discriminate. intros [= <-]. cbn. now intros ->.
  Qed.

  Lemma doubling_start : forall c a (s : state), miv_with_capacity (recorded L) c a = Ret s -> vec_capacity (mi_v s) = c ->
    doubling c (snd (mi_mem s)) 0 s.
  Proof.
    intros c [a log] s E Hc. rewrite (with_capacity_exact _ _ E Hc). unfold doubling. cbn.
    split; [reflexivity|]. split; [lia|]. split; [lia|]. split; [exists 0; reflexivity|]. left. splits; auto; lia.
  Qed.

  Lemma doubling_means : forall c log0 n s, doubling c log0 n s ->
    (snd (mi_mem s) = log0 <-> exists k, n + 1 <= 2 ^ k /\ 2 ^ k <= c + 1).
  Proof.
    intros c log0 n s (Hn & H1 & H2 & [j Hj] & H). split.
    - intros Hl. destruct H as [(_ & _ & H)|[(m & rs & H) _]]; [exists j; lia|].
      rewrite Hl in H. apply (f_equal (@length _)) in H. rewrite app_length in H. cbn in H. lia.
    - intros (k & Hk1 & Hk2). destruct H as [(H & _)|[_ H]]; [exact H|]. exfalso.
      assert (Hlt : k < j). { apply (Nat.pow_lt_mono_r_iff 2); lia. }
      assert (2 ^ Datatypes.S k <= 2 ^ j) by (apply Nat.pow_le_mono_r; lia). cbn [Nat.pow] in *. lia.
  Qed.

  Lemma no_more_requests : forall c a (s : state) h s', miv_with_capacity (recorded L) c a = Ret s -> vec_capacity (mi_v s) = c ->
    c_trace (miv_consumer (recorded L) d) s h s' -> Forall (fun x => filling (fst x)) h ->
    (snd (mi_mem s') = snd (mi_mem s) <-> exists k, length (c_consumed [] h) + 1 <= 2 ^ k /\ 2 ^ k <= c + 1).
  Proof.
    intros c a s h s' E Hc Ht HF. apply doubling_means. exact (doubling_fill Ht HF (doubling_start _ E Hc)).
  Qed.
End Requests.

(** ** Slots never outgrow the capacity *)
Section Fits.
  Context {A T : Type} (L : allocator A) (d : T) (HG : gives_enough L).

  Definition fitting (s : mem_into_vec A T) (k : nat) : Prop :=
    mi_consumed s + k <= length (vec_items (mi_v s)) <= vec_capacity (mi_v s).

  Lemma fitting_do : forall o s k s' r, fitting s k -> allowed k o ->
    c_do (miv_consumer L d) o s = Ret (s', r) -> fitting s' (c_shown k o r).
  Proof.
    intros o s k s' r [H1 H2].
    assert (HM : forall s', miv_make_space_if_needed L d s = Ret s' ->
      mi_consumed s' < length (vec_items (mi_v s')) /\ length (vec_items (mi_v s')) <= vec_capacity (mi_v s')).
    { intros t Et. split; [|exact (proj2 (make_space_cap d HG _ Et) H2)].
      destruct (make_space_cases L d s) as [[H E']|[(H & Hc & E')|[(j & H & Hc & Hg & E')|[H E']]]];
        rewrite E' in Et; try discriminate; injection Et as <-; [lia| |];
        cbn [grown mi_v mi_consumed vec_items]; rewrite length_resize; lia. }
    unfold fitting. destruct o as [x|f| | |ys|n|buf]; cbn [allowed]; intros Ha;
      cbn [c_do miv_consumer bulk_consumer_of c_consume c_close c_flush c_expose c_write c_consume_slots c_bulk_consume
           c_buffered c_consumer].
    - unfold miv_consume. destruct (miv_make_space_if_needed L d s) as [s1| |]; cbn [bind]; try discriminate.
      destruct (HM _ eq_refl) as [Hl Hc]. rewrite index_set_ok by lia. cbn [bind]. intros [= <- <-].
      cbn [c_shown mi_v mi_consumed vec_items vec_capacity]. rewrite length_blit by (cbn [length]; lia). lia.
    - intros [= <- <-]. cbn [c_shown]. lia.
    - intros [= <- <-]. cbn [c_shown]. lia.
    - unfold miv_expose. destruct (miv_make_space_if_needed L d s) as [s1| |]; cbn [bind]; try discriminate.
      destruct (HM _ eq_refl) as [Hl Hc]. rewrite slice_from_ok by lia. cbn [bind]. intros [= <- <-]. cbn [c_shown].
      rewrite skipn_length. lia.
    - intros [= <- <-]. cbn [c_shown miv_write mi_v mi_consumed vec_items vec_capacity]. rewrite length_blit by lia. lia.
    - intros [= <- <-]. cbn [c_shown mi_v mi_consumed]. lia.
    - unfold default_bulk_consume, miv_expose. destruct (miv_make_space_if_needed L d s) as [s1| |]; cbn [bind]; try discriminate.
      destruct (HM _ eq_refl) as [Hl Hc]. rewrite slice_from_ok by lia. cbn [bind]. rewrite skipn_length.
      intros [= <- <-]. cbn [c_shown miv_write mi_v mi_consumed vec_items vec_capacity].
      rewrite length_blit; rewrite ?firstn_length; lia.
  Qed.

  Lemma fitting_trace : forall h s s', c_trace (miv_consumer L d) s h s' -> forall k, fitting s k -> c_rules k h -> exists k', fitting s' k'.
  Proof.
    intros h s s' H. induction H as [s|s o s1 r h s' E Ht IH]; intros k HF HR; [exists k; exact HF|].
    cbn [c_rules] in HR. destruct HR as [Ha HR]. pose proof (fitting_do o HF Ha E) as HF1.
    destruct (c_ends o r); [|exact (IH _ HF1 HR)]. subst h. inversion Ht; subst. eauto.
  Qed.

  Lemma collected_fits : forall v a h s', length (vec_items v) <= vec_capacity v ->
    c_trace (miv_consumer L d) (miv_from_vec v a) h s' -> c_rules 0 h ->
    length (vec_items (mi_v s')) <= vec_capacity (miv_into_vec s').
  Proof.
    intros v a h s' Hv H HR. apply (fitting_trace H (k := 0)) in HR as [k' HF]; [exact (proj2 HF)|].
    unfold fitting. cbn. lia.
  Qed.
End Fits.

(** ** The constructors of [Fixed] *)
Section Fixed.
  Context {A T : Type} (L : allocator A).

  Lemma fixed_cases : gives_enough L -> forall c (tmp : nat -> T) a,
    let new := mem_fixed_new_with_manual_tmps L c tmp a in
    let try_new := mem_fixed_try_new_with_manual_tmps L c tmp a in
    let q := fixed_new_with_manual_tmps c tmp in
    match al_fresh L c a with
    | (a1, None) =>
        if c =? 0 then new = Ret (a, q) /\ try_new = Ret (a, Some q) else new = Panic /\ try_new = Ret (a1, None)
    | (a1, Some k) =>
        if c =? 0 then new = Ret (a, q) /\ try_new = Ret (a, Some q)
        else if c =? k then new = Ret (a1, q) /\ try_new = Ret (a1, Some q)
        else match al_shrink L k c a1 with
             | (a2, true) => new = Ret (a2, q) /\ try_new = Ret (a2, Some q)
             | (a2, false) => new = Panic /\ try_new = Panic
             end
    end.
  Proof.
    intros HG c tmp a. cbv zeta. unfold mem_fixed_new_with_manual_tmps, mem_fixed_try_new_with_manual_tmps, vec_with_capacity,
      vec_try_with_capacity.
    pose proof (ge_fresh HG c a) as Hk. destruct (al_fresh L c a) as [a1 got].
    destruct (Nat.eqb_spec c 0) as [->|Hc]; [destruct got; split; reflexivity|].
    destruct got as [k|]; [|split; reflexivity]. specialize (Hk k eq_refl). cbn [expect bind].
    unfold vec_resize_with. cbn [vec_items length vec_capacity]. rewrite Nat.sub_0_r.
    destruct (Nat.eqb_spec c 0); [lia|]. destruct (Nat.leb_spec c k); [|lia]. cbn [bind app].
    unfold vec_into_boxed_slice. cbn [vec_items vec_capacity]. rewrite map_length, seq_length.
    destruct (Nat.eqb_spec c k) as [->|Hne].
    - rewrite Nat.ltb_irrefl. split; reflexivity.
    - destruct (Nat.ltb_spec c k); [|lia]. destruct (al_shrink L k c a1) as [a2 []]; split; reflexivity.
  Qed.
End Fixed.

(** ** The fuzz target *)
Section Fuzz.
  Context {A : Type} (L : allocator A) (HG : gives_enough L) (HN : never_refuses L).

  Section Inner.
    Context (c fuel : nat) (ops : list cscr_op) (OK : cscr_ops_ok ops) (cap : nat) (Hf : S cap * length ops <= fuel) (dbg : bool).
    Let CS := cscr_consumer dbg 0 fuel (miv_consumer L 0).
    Let LC := miv_core 0 HG HN c.
    Let R := miv_rel (A := A) (T := nat) c.

    Lemma mem_consume_each : forall input s a pend, (dbg = true -> length pend + length input <= cap) ->
      cscr_rel R cap ops s a pend 0 [] ->
      exists s' a' pend', consume_each CS input s = Ret s' /\ a' ++ pend' = a ++ pend ++ input /\ cscr_rel R cap ops s' a' pend' 0 [].
    Proof.
      induction input as [|x input IH]; intros s a pend Hroom HR; cbn [consume_each].
      - exists s, a, pend. rewrite app_nil_r. auto.
      - destruct (@scrambled_consume _ _ _ _ _ 0 _ _ _ _ LC cap fuel ops OK Hf dbg x s a pend 0 []) as
          [(s1 & out & pend1 & a1 & E1 & Ho & _ & HF & HR1)|(_ & [] & _)]; auto.
        { intros Hd. specialize (Hroom Hd). cbn in Hroom. lia. }
        fold CS in E1. rewrite E1. cbn [bind is_ok assert]. apply collect_forwards in HF as ->.
        destruct (IH s1 (a ++ out) pend1) as (s' & a' & pend' & E2 & Ho' & HR2).
        { intros Hd. specialize (Hroom Hd). apply (f_equal (@length nat)) in Ho. rewrite !app_length in Ho. cbn in Ho, Hroom. lia. }
        { exact HR1. }
        exists s', a', pend'. splits; auto. rewrite Ho', <- app_assoc. f_equal. rewrite app_assoc, Ho, <- app_assoc. reflexivity.
    Qed.

    Lemma mem_passes_with : forall input s, (dbg = true -> length input <= cap) -> cscr_rel R cap ops s [] [] 0 [] ->
      (let* s := consume_each CS input s in
       let* (s, r) := c_flush CS s in
       assert (is_ok r) ;; assert (c <=? vec_capacity (miv_into_vec (cs_inner s))) ;;
       assert_eq input (vec_items (miv_into_vec (cs_inner s)))) = Ret tt.
    Proof.
      intros input s Hroom HR. destruct (@mem_consume_each input s [] [] Hroom HR) as (s1 & a1 & pend1 & E1 & Ho & HR1).
      rewrite E1. cbn [bind].
      destruct (@scrambled_flush _ _ _ _ _ 0 _ _ _ _ LC cap fuel ops OK Hf dbg s1 a1 pend1 0 [] HR1) as [(s2 & a2 & HF & E2 & HR2)|(_ & [] & _)].
      fold CS in E2. rewrite E2. cbn [bind is_ok assert snd collect_machine m_flush] in *. apply collect_forwards in HF as ->.
      destruct HR2 as [HR2 Hc]. apply (iv_rel_read (T := nat)) in HR2 as [_ Hv]. rewrite Ho in Hv. cbn [app] in Hv.
      change (vec_capacity (miv_into_vec (cs_inner s2))) with (vec_capacity (mi_v (cs_inner s2))).
      rewrite (proj2 (Nat.leb_le _ _) Hc). cbn [assert bind]. apply assert_eq_Ret. symmetry. exact Hv.
    Qed.
  End Inner.

  Lemma mem_fuzz_passes : forall dbg fuel input capacity ops a,
    (forall n, In (ScConsumeSlots n) ops -> 1 <= n) -> S scrambler_capacity * S (length ops) <= fuel ->
    (dbg = true -> length input <= scrambler_capacity) ->
    mem_fuzz_into_vec L dbg fuel input capacity ops a = Ret tt.
  Proof.
    intros dbg fuel input capacity ops a Hn Hf Hroom. unfold mem_fuzz_into_vec. cbv zeta.
    destruct (miv_with_capacity_ok (T := nat) HG HN (Nat.min capacity 2048) a) as (s & E & Hp & Hc). rewrite E. cbn [bind].
    assert (H0 : miv_rel (Nat.min capacity 2048) s [] 0 []).
    { split; [|exact Hc]. rewrite Hp. unfold iv_rel; cbn; auto. }
    destruct (@cscr_ready _ _ _ _ _ 0 _ _ _ _ _ _ ops scrambler_capacity fuel (miv_core 0 HG HN _) H0 scrambler_capacity_pos Hn Hf)
      as (OK & Hf' & HR).
    exact (@mem_passes_with _ fuel _ OK scrambler_capacity Hf' dbg input _ Hroom HR).
  Qed.
End Fuzz.

(** ** Boxed slices of encodings *)
Section Boxed.
  Context {A : Type} (L : allocator A) (HG : gives_enough L) (HN : never_refuses L).

  Lemma boxed_gives : forall (v : vec byte) a, exists a', vec_into_boxed_slice L v a = Ret (a', vec_items v).
  Proof.
    intros v a. unfold vec_into_boxed_slice. destruct (length (vec_items v) <? vec_capacity v); [|eauto].
    pose proof (nr_shrink HN (vec_capacity v) (length (vec_items v)) a) as H. destruct (al_shrink L _ _ a) as [a' ok].
    cbn in H. subst ok. eauto.
  Qed.

  Lemma boxed_slice : forall V (encode : encode_fn V) enc v n a, lawful_encode encode enc ->
    exists a', mem_encode_into_boxed_slice L x00 (fun C => encode _ _ _ C v) n a = Ret (a', enc v).
  Proof.
    intros V encode enc v n a HL. unfold mem_encode_into_boxed_slice.
    destruct (miv_with_capacity_ok (T := byte) HG HN n a) as (s & E & Hp & Hc). rewrite E. cbn [bind].
    assert (H0 : miv_rel n s [] 0 []) by (split; [rewrite Hp; unfold iv_rel; cbn; auto|exact Hc]).
    assert (LC : lawful_consumer (miv_consumer L x00) (collect_machine byte unit infallible) (miv_rel n) (miv_end n)).
    { apply default_lawful_consumer; [apply miv_core; assumption|reflexivity]. }
    pose proof (HL _ _ _ _ _ _ _ _ LC v s [] 0 [] H0) as H. rewrite collect_feed in H. destruct H as (s' & E' & [HR _]).
    rewrite E'. cbn [bind]. destruct (boxed_gives (miv_into_vec s') (mi_mem s')) as [a' Ea]. exists a'. rewrite Ea.
    apply (iv_rel_read (T := byte)) in HR as [_ HR]. do 2 f_equal. exact HR.
  Qed.
End Boxed.

Lemma recorded_gives : forall A (L : allocator A), gives_enough L -> gives_enough (recorded L).
Proof.
  intros A L H. split; cbn [recorded al_fresh al_grow].
  - intros n a k. pose proof (@ge_fresh _ _ H n (fst a) k) as H1. destruct (al_fresh L n (fst a)). exact H1.
  - intros c n a k. pose proof (@ge_grow _ _ H c n (fst a) k) as H1. destruct (al_grow L c n (fst a)). exact H1.
Qed.

Lemma recorded_never : forall A (L : allocator A), never_refuses L -> never_refuses (recorded L).
Proof.
  intros A L H. split; cbn [recorded al_fresh al_grow al_shrink].
  - intros n a. pose proof (nr_fresh H n (fst a)) as H1. destruct (al_fresh L n (fst a)). exact H1.
  - intros c n a. pose proof (nr_grow H c n (fst a)) as H1. destruct (al_grow L c n (fst a)). exact H1.
  - intros c n a. pose proof (nr_shrink H c n (fst a)) as H1. destruct (al_shrink L c n (fst a)). exact H1.
Qed.

Lemma bits_pos : forall i, BITS i / 8 <> 0.
Proof. intros []; discriminate. Qed.

Lemma bits_pow : forall i, (exists k, BITS i / 8 + 1 <= 2 ^ k /\ 2 ^ k <= BITS i / 8 + 1) <-> BITS i = 8.
Proof.
  intros i. split; [|intros ->; exists 1; change (8 / 8) with 1; cbn; lia].
  destruct i; try reflexivity; change (BITS _ / 8) with 2 || change (BITS _ / 8) with 4 || change (BITS _ / 8) with 8;
    intros (k & K1 & K2); exfalso; do 4 (destruct k as [|k]; [cbn in K1, K2; lia|]);
    cbn [Nat.pow] in K2; assert (2 ^ k <> 0) by (apply Nat.pow_nonzero; discriminate); lia.
Qed.

(** The numbers: one allocation that suffices for bytes, and a further one for all others. *)
Lemma number_slices : forall A (L : allocator A), gives_enough L -> never_refuses L -> exact_at_first L ->
  forall w (v : num (wrapped w)) a, exists a' rs,
  mem_encode_into_boxed_slice (recorded L) x00 (fun C => endian_encode w C v) (endian_len_of_encoding w v) (a, []) = Ret ((a', rs), to_bytes w v) /\
  ((exists m, In (Grow m) rs) <-> BITS (wrapped w) <> 8).
Proof.
  intros A L HG HN HE w v a. set (n := endian_len_of_encoding w v).
  assert (Hn : length (to_bytes w v) = n) by apply length_to_bytes.
  unfold mem_encode_into_boxed_slice.
  destruct (miv_with_capacity_ok (T := byte) (recorded_gives HG) (recorded_never HN) n (a, [])) as (s & E & Hp & _).
  assert (Hpos : n <> 0) by apply bits_pos.
  assert (Hs : vec_capacity (mi_v s) = n /\ snd (mi_mem s) = [Fresh n]).
  { revert E. unfold miv_with_capacity, vec_with_capacity, vec_try_with_capacity. destruct (Nat.eqb_spec n 0); [contradiction|].
    cbn [recorded al_fresh fst snd]. specialize (HE n a). destruct (al_fresh L n a) as [a1 r]. cbn in HE. subst r. intros [= <-]. auto. }
  destruct Hs as [Hc Hm]. rewrite E. cbn [bind]. pose proof (doubling_start _ _ E Hc) as HD. rewrite Hm in HD.
  assert (H0 : miv_rel n s [] 0 []) by (split; [rewrite Hp; unfold iv_rel; cbn; auto|lia]).
  assert (LC : lawful_consumer (miv_consumer (recorded L) x00) (collect_machine byte unit infallible) (miv_rel n) (miv_end n)).
  { apply default_lawful_consumer; [apply miv_core; [now apply recorded_gives|now apply recorded_never]|reflexivity]. }
  pose proof (endian_lawful_encode w _ _ _ _ _ _ _ _ LC v s [] 0 [] H0) as H. rewrite collect_feed in H. destruct H as (s' & E' & [HR _]).
  rewrite E'. cbn [bind]. apply (iv_rel_read (T := byte)) in HR as [_ HR]. cbn [app] in HR.
  assert (HD' : doubling n [Fresh n] n s').
  { unfold endian_encode in E'. cbv zeta in E'.
    destruct (bulk_consume_full_slice (Datatypes.S (length (to_bytes w v))) (miv_consumer (recorded L) x00) (to_bytes w v) s) as [[s1 r1]| |] eqn:El;
      cbn [bind] in E'; try discriminate. injection E' as -> _. pose proof (@doubling_loop _ _ L x00 n [Fresh n] _ _ 0 0 _ _ _ HD (Nat.le_0_l _) El) as HL.
    rewrite Hn, Nat.sub_0_r in HL. exact HL. }
  destruct (boxed_gives (recorded_never HN) (miv_into_vec s') (mi_mem s')) as [[a' rs] Ea]. exists a', rs.
  change (vec_items (miv_into_vec s')) with (into_vec_into_vec (plain s')) in Ea. rewrite HR in Ea. split; [exact Ea|].
  assert (Hrs : exists tl, rs = snd (mi_mem s') ++ tl /\ forall m, ~ In (Grow m) tl).
  { revert Ea. unfold vec_into_boxed_slice. destruct (_ <? _).
    - cbn [recorded al_shrink]. destruct (al_shrink L _ _ _) as [a2 []]; [|discriminate]. intros Ea; injection Ea as _ <- _.
      eexists. split; [reflexivity|]. intros m [Hx|[]]. discriminate.
    - intros Ea. injection Ea as Em _. exists []. rewrite Em. cbn [snd]. rewrite app_nil_r. split; [reflexivity|]. intros m []. }
  destruct Hrs as (tl & -> & Htl). pose proof (doubling_means HD') as HM.
  pose proof (bits_pow (wrapped w)) as Hpow. change (BITS (wrapped w) / 8) with n in Hpow.
  rewrite Hpow in HM. split.
  - intros [m Hi] Hb. apply HM in Hb. rewrite Hb in Hi. apply in_app_or in Hi as [[Hi|[]]|Hi]; [discriminate|exact (Htl _ Hi)].
  - intros Hb. destruct HD' as (_ & _ & _ & _ & [(H & _)|[(m & r & H) _]]); [exfalso; apply Hb, HM; exact H|].
    exists m. rewrite H. apply in_or_app. left. right. now left.
Qed.

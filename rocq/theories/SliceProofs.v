(** Proofs about [IntoSlice]. *)
From Coq Require Import Bool List Arith Lia.
From Verif Require Import Prelude ListFacts Traits Contracts ContractFacts BasicModel BasicSpec BasicProofs PipeSpec PipeProofs
  SliceModel SliceSpec.
Import ListNotations.
Set Implicit Arguments.

Lemma bind_Ret_inv : forall A B (m : outcome A) (k : A -> outcome B) b,
  bind m k = Ret b -> exists a, m = Ret a /\ k a = Ret b.
Proof. intros A B [a| |] k b H; cbn in H; try discriminate. now exists a. Qed.

(** A property of the states of a consumer that every call keeps is kept by the pipes. *)
Section Kept.
  Context {SP SC T F PE CE : Type} (P : bulk_producer SP T F PE) (C : bulk_consumer SC T F CE) (K : SC -> Prop).
  Context (Kconsume : forall x s s' r, K s -> c_consume C x s = Ret (s', r) -> K s')
    (Kclose : forall f s s' r, K s -> c_close C f s = Ret (s', r) -> K s')
    (Kbulk : forall buf s s' r, K s -> c_bulk_consume C buf s = Ret (s', r) -> K s').

  Lemma pipe_keeps : forall fuel sp sc sp' sc' r, K sc -> pipe fuel P C sp sc = Ret (sp', sc', r) -> K sc'.
  Proof.
    induction fuel as [|fuel IH]; intros sp sc sp' sc' r HK H; [discriminate|]. cbn [pipe] in H.
    apply bind_Ret_inv in H as ([sp1 rp] & _ & H). destruct rp as [[x|f]|e].
    - apply bind_Ret_inv in H as ([sc1 rc] & E1 & H). pose proof (Kconsume _ HK E1) as HK1.
      destruct rc as [[]|e]; [exact (IH _ _ _ _ _ HK1 H)|]. now injection H as <- <- <-.
    - apply bind_Ret_inv in H as ([sc1 rc] & E1 & H). pose proof (Kclose _ HK E1) as HK1.
      destruct rc as [[]|e]; now injection H as <- <- <-.
    - now injection H as <- <- <-.
  Qed.

  Lemma bulk_pipe_keeps : forall fuel sp sc sp' sc' r, K sc -> bulk_pipe fuel P C sp sc = Ret (sp', sc', r) -> K sc'.
  Proof.
    induction fuel as [|fuel IH]; intros sp sc sp' sc' r HK H; [discriminate|]. cbn [bulk_pipe] in H.
    apply bind_Ret_inv in H as ([sp1 rp] & _ & H). destruct rp as [[xs|f]|e].
    - apply bind_Ret_inv in H as ([sc1 rc] & E1 & H). pose proof (Kbulk _ HK E1) as HK1.
      destruct rc as [n|e]; [|now injection H as <- <- <-].
      apply bind_Ret_inv in H as ([sp2 rp] & _ & H). destruct rp as [[]|e]; [exact (IH _ _ _ _ _ HK1 H)|]. now injection H as <- <- <-.
    - apply bind_Ret_inv in H as ([sc1 rc] & E1 & H). pose proof (Kclose _ HK E1) as HK1.
      destruct rc as [[]|e]; now injection H as <- <- <-.
    - now injection H as <- <- <-.
  Qed.
End Kept.

Section IntoSlice.
  Context {T : Type}.

  Definition as_vec (s : into_slice T) : into_vec T := mk_into_vec (is_slice s) (is_offset s).
  Definition is_rel (n : nat) (s : into_slice T) (log : list T) (k : nat) (w : list T) : Prop :=
    length (is_slice s) = n /\ iv_rel (as_vec s) log k w.
  Definition is_end (n : nat) (s : into_slice T) (log : list T) : Prop := is_rel n s log 0 [].

  Lemma is_rel_new : forall l, is_rel (length l) (into_slice_new l) [] 0 [].
  Proof. intros l. split; [reflexivity|]. unfold iv_rel; cbn. splits; auto; lia. Qed.

  Lemma is_rel_forget : forall n s log k w, is_rel n s log k w -> is_rel n s log 0 [].
  Proof. intros n s log k w [H1 H2]. split; [exact H1|exact (iv_rel_forget H2)]. Qed.

  Lemma is_rel_len : forall n s log k w, is_rel n s log k w -> length log <= n /\ is_offset s = length log.
  Proof. intros n s log k w [H1 (H2 & H3 & _)]. cbn in H2, H3. lia. Qed.

  Lemma is_consume_ok : forall n s log k w x, is_rel n s log k w ->
    exists s', into_slice_consume x s = Ret (s', snd (m_step (filling_machine T unit n) x log)) /\
      match m_step (filling_machine T unit n) x log with (a', Ok _) => is_rel n s' a' 0 [] | (a', Err _) => is_end n s' a' end.
  Proof.
    intros n s log k w x H. pose proof (is_rel_forget H) as H0. destruct (is_rel_len H) as [Hl Ho]. destruct H0 as [H1 H2].
    unfold into_slice_consume. cbn [filling_machine m_step]. rewrite H1, Ho.
    destruct (Nat.eqb_spec n (length log)) as [E|E].
    - replace (length log <? n) with false by (symmetry; apply Nat.ltb_ge; lia). exists s. split; [reflexivity|]. split; auto.
    - replace (length log <? n) with true by (symmetry; apply Nat.ltb_lt; lia).
      rewrite index_set_ok by lia. cbn [bind]. eexists; split; [reflexivity|].
      destruct (iv_consume_ok x x H2) as (s' & E1 & HR). unfold into_vec_consume, into_vec_make_space_if_needed in E1.
      cbn [as_vec iv_v iv_consumed] in E1. rewrite H1, Ho in E1.
      replace (length log =? n) with false in E1 by (symmetry; apply Nat.eqb_neq; lia).
      unfold as_vec in E1. cbn [iv_v iv_consumed] in E1. rewrite index_set_ok in E1 by lia. rewrite Ho in E1. cbn [bind] in E1. injection E1 as <-.
      split; [|exact HR]. cbn [is_slice]. rewrite length_blit; cbn [length]; lia.
  Qed.

  Lemma filling_feed : forall F n xs log, length log <= n ->
    m_feed (filling_machine T F n) xs log =
    (log ++ firstn (n - length log) xs, Nat.min (n - length log) (length xs), if length log + length xs <=? n then None else Some tt).
  Proof.
    induction xs as [|x xs IH]; intros log Hl.
    - cbn. rewrite firstn_nil, app_nil_r, Nat.min_0_r. replace (length log + 0 <=? n) with true by (symmetry; apply Nat.leb_le; lia). reflexivity.
    - cbn [m_feed filling_machine m_step]. destruct (Nat.ltb_spec (length log) n) as [Hlt|Hge].
      + fold (filling_machine T F n). rewrite IH by (rewrite app_length; cbn; lia). rewrite app_length. cbn [length].
        replace (n - length log) with (S (n - (length log + 1))) by lia. cbn [firstn Nat.min]. rewrite <- app_assoc. cbn [app].
        replace (length log + 1 + length xs) with (length log + S (length xs)) by lia. reflexivity.
      + replace (n - length log) with 0 by lia. cbn. rewrite app_nil_r.
        replace (length log + S (length xs) <=? n) with false by (symmetry; apply Nat.leb_gt; lia). reflexivity.
  Qed.

  Lemma into_slice_core : forall n,
    lawful_consumer_core (@into_slice_consumer T) (filling_machine T unit n) (is_rel n) (is_end n).
  Proof.
    intros n. constructor.
    - intros s a k w [_ (_ & _ & H & _)]. exact H.
    - intros s a k w H. exact (is_rel_forget H).
    - intros s a k w x H. exact (is_consume_ok x H).
    - intros s a k w f H. exists s. split; [reflexivity|]. exact (is_rel_forget H).
    - intros s a k w H. exists s. split; [reflexivity|exact H].
    - intros s a k w H. destruct (is_rel_len H) as [Hl Ho]. pose proof (is_rel_forget H) as H0. pose proof H0 as [H1 (H2 & H3 & H4 & H5)].
      cbn [into_slice_consumer bulk_consumer_of c_expose]. unfold into_slice_expose. rewrite H1, Ho.
      destruct (Nat.eqb_spec n (length a)) as [E|E].
      + right. exists s, tt, a. split; [reflexivity|]. split; [|exact H0]. intros x. cbn.
        replace (length a <? n) with false by (symmetry; apply Nat.ltb_ge; lia). reflexivity.
      + left. rewrite slice_from_ok by lia. cbn [bind]. exists s, (n - length a). rewrite skipn_length, H1. split; [reflexivity|].
        split; [lia|]. split; [exact H1|]. split; [exact H2|]. split; [cbn in *; lia|]. split; [cbn; lia|exact H5].
    - intros s a k w ys [H1 H2] Hy. split; [|exact (iv_write_ok ys H2 Hy)].
      cbn. destruct H2 as (H2 & H3 & _). cbn in H2, H3. rewrite length_blit; lia.
    - intros s a k w m [H1 H2] Hk Hm. pose proof H2 as (G1 & G2 & G3 & G4). cbn in G1, G2.
      rewrite filling_feed by lia. rewrite firstn_length, Nat.min_l by lia.
      replace (length a + m <=? n) with true by (symmetry; apply Nat.leb_le; lia).
      rewrite (firstn_all2 (n := n - length a)) by (rewrite firstn_length; lia).
      eexists; split; [reflexivity|]. split; [exact H1|].
      destruct (iv_consume_slots_ok H2 Hm) as (s' & E1 & HR). injection E1 as <-. exact HR.
  Qed.

  Lemma into_slice_lawful : forall n,
    lawful_consumer (@into_slice_consumer T) (filling_machine T unit n) (is_rel n) (is_end n).
  Proof. intros n. apply default_lawful_consumer; [apply into_slice_core|reflexivity]. Qed.

  Lemma is_rel_read : forall n s log k w, is_rel n s log k w ->
    length (into_slice_as_ref s) = n /\ into_slice_get_offset s = length log /\
    into_slice_get_overwritten_so_far s = Ret log /\
    exists rest, into_slice_get_not_yet_overwritten s = Ret rest /\ into_slice_as_ref s = log ++ rest.
  Proof.
    intros n s log k w H. destruct (is_rel_len H) as [Hl Ho]. apply is_rel_forget in H as [H1 H2].
    destruct (iv_rel_read H2) as [R1 _]. unfold into_vec_as_ref in R1. cbn in R1.
    unfold into_slice_as_ref, into_slice_get_overwritten_so_far, into_slice_get_not_yet_overwritten, into_slice_get_offset.
    splits; auto. rewrite slice_from_ok by lia. eexists. split; [reflexivity|].
    rewrite slice_to_ok in R1 by lia. injection R1 as R1. rewrite <- R1 at 1. symmetry. apply firstn_skipn.
  Qed.

  Lemma into_slice_clean : forall n, clean_bulk (@into_slice_consumer T) (filling_machine T unit n) (is_rel n).
  Proof.
    intros n s a k w x buf s' e H HB. destruct (is_rel_len H) as [Hl Ho]. destruct H as [H1 _].
    cbn [into_slice_consumer bulk_consumer_of c_bulk_consume] in HB. unfold default_bulk_consume, into_slice_expose in HB.
    rewrite H1, Ho in HB. destruct (Nat.eqb_spec n (length a)) as [E|E].
    - cbn. replace (length a <? n) with false by (symmetry; apply Nat.ltb_ge; lia). destruct e. reflexivity.
    - rewrite slice_from_ok in HB by lia. cbn in HB. discriminate.
  Qed.

  (** Items that have not been consumed leave the rest of the slice as it was. *)
  Definition untouched (l : list T) (s : into_slice T) : Prop :=
    is_offset s <= length (is_slice s) /\ length (is_slice s) = length l /\ skipn (is_offset s) (is_slice s) = skipn (is_offset s) l.

  Lemma skipn_blit : forall i (ys v : list T), i <= length v -> skipn (i + length ys) (blit i ys v) = skipn (i + length ys) v.
  Proof.
    intros i ys v H. unfold blit. rewrite app_assoc, skipn_app, skipn_all2.
    - rewrite app_length, firstn_length, Nat.min_l, Nat.sub_diag by lia. reflexivity.
    - rewrite app_length, firstn_length, Nat.min_l by lia. lia.
  Qed.

  Lemma untouched_blit : forall l s ys, untouched l s -> is_offset s + length ys <= length (is_slice s) ->
    untouched l (mk_into_slice (blit (is_offset s) ys (is_slice s)) (is_offset s + length ys)).
  Proof.
    intros l s ys (H1 & H2 & H3) Hy. unfold untouched; cbn [is_slice is_offset]. rewrite length_blit by lia. split; [lia|split; [lia|]].
    rewrite skipn_blit by lia. rewrite <- !skipn_skipn, H3. reflexivity.
  Qed.

  Lemma untouched_consume : forall l x s s' r, untouched l s -> into_slice_consume x s = Ret (s', r) -> untouched l s'.
  Proof.
    intros l x s s' r H. unfold into_slice_consume. destruct (Nat.eqb_spec (length (is_slice s)) (is_offset s)) as [E|E].
    - intros [= <- <-]. exact H.
    - pose proof H as (H1 & _). rewrite index_set_ok by lia. cbn [bind]. intros [= <- <-].
      apply (@untouched_blit l s [x] H). cbn. lia.
  Qed.

  Lemma untouched_bulk : forall l buf s s' r, untouched l s -> c_bulk_consume (@into_slice_consumer T) buf s = Ret (s', r) -> untouched l s'.
  Proof.
    intros l buf s s' r H. pose proof H as (H1 & _).
    cbn [into_slice_consumer bulk_consumer_of c_bulk_consume]. unfold default_bulk_consume, into_slice_expose.
    destruct (Nat.eqb_spec (length (is_slice s)) (is_offset s)) as [E|E].
    - cbn [bind]. intros [= <- <-]. exact H.
    - rewrite slice_from_ok by lia. cbn [bind]. rewrite skipn_length. set (m := Nat.min _ (length buf)).
      assert (Hm : length (firstn m buf) = m) by (rewrite firstn_length; unfold m; lia).
      unfold into_slice_consume_slots, into_slice_write. cbn [bind is_slice is_offset]. intros [= <- <-].
      rewrite <- Hm at 2. apply untouched_blit; [exact H|]. rewrite Hm. unfold m. lia.
  Qed.

  Lemma untouched_new : forall l, untouched l (into_slice_new l).
  Proof. intros l. unfold untouched; cbn. splits; auto; lia. Qed.

  Lemma untouched_read : forall l s log, untouched l s -> is_rel (length l) s log 0 [] ->
    into_slice_as_ref s = log ++ skipn (length log) l.
  Proof.
    intros l s log (H1 & H2 & H3) H. destruct (is_rel_len H) as [Hl Ho].
    destruct (is_rel_read H) as (_ & _ & R1 & rest & R2 & ->). f_equal.
    unfold into_slice_get_not_yet_overwritten, into_slice_get_offset in R2. rewrite slice_from_ok in R2 by lia. injection R2 as <-.
    now rewrite H3, Ho.
  Qed.

  (** *** Histories *)
  Lemma ended_history : forall S A F E (C : bulk_consumer S T F E) (M : machine A T F E) s a h s' a',
    c_history C M s (CEnded a) h s' a' -> h = [] /\ s' = s.
  Proof. intros S A F E C M s a h s' a' H. inversion H; subst; auto. match goal with X : c_permitted (CEnded _) _ |- _ => destruct X end. Qed.

  Lemma is_bulk_err : forall n s a k w buf s' e, is_rel n s a k w ->
    c_bulk_consume into_slice_consumer buf s = Ret (s', Err e) -> s' = s.
  Proof.
    intros n s a k w buf s' e H HB. destruct (is_rel_len H) as [Hl Ho]. destruct H as [H1 _].
    cbn [into_slice_consumer bulk_consumer_of c_bulk_consume] in HB. unfold default_bulk_consume, into_slice_expose in HB.
    rewrite H1, Ho in HB. destruct (Nat.eqb_spec n (length a)) as [E|E].
    - now injection HB.
    - rewrite slice_from_ok in HB by lia. cbn in HB. discriminate.
  Qed.

  Lemma filling_history : forall n (s : into_slice T) a k w h s' a', is_rel n s a k w ->
    c_history into_slice_consumer (filling_machine T unit n) s (CActive a k w) h s' a' ->
    is_rel n s' (a ++ c_consumed w h) 0 [].
  Proof.
    intros n s a k w h s' a' HR H. remember (CActive a k w) as x eqn:Hx. revert a k w Hx HR.
    induction H as [s x|s x o s1 r x1 h s2 x2 HP HD HA HH IH]; intros a k w -> HR.
    { cbn. rewrite app_nil_r. exact (is_rel_forget HR). }
    assert (Over : forall a1 w', x1 = CEnded a1 -> is_rel n s1 a 0 [] -> is_rel n s2 (a ++ c_consumed w' h) 0 []).
    { intros a1 w' -> H1. destruct (ended_history HH) as [-> ->]. cbn. now rewrite app_nil_r. }
    pose proof (into_slice_lawful n) as L. pose proof (is_rel_len HR) as [Hl _].
    destruct o; cbn [c_do] in HD.
    - destruct (lc_consume L x HR) as (s' & E1 & H1). rewrite E1 in HD. cbn [bind] in HD. injection HD as <- <-.
      cbn [c_answer] in HA. destruct HA as [_ HA]. revert HA H1. cbn [filling_machine m_step].
      destruct (Nat.ltb_spec (length a) n) as [E|E]; cbn [c_next snd]; intros HA H1; cbn [c_consumed].
      + specialize (IH _ _ _ HA H1). rewrite <- app_assoc in IH. exact IH.
      + exact (Over _ _ HA H1).
    - destruct (lc_close L f HR) as (s' & E1 & H1). rewrite E1 in HD. cbn [bind] in HD. injection HD as <- <-.
      cbn [c_answer] in HA. destruct HA as [_ HA]. cbn [c_consumed]. exact (Over _ _ HA H1).
    - destruct (lc_flush L HR) as (s' & E1 & H1). rewrite E1 in HD. cbn [bind] in HD. injection HD as <- <-.
      cbn [c_answer] in HA. destruct HA as [_ HA]. cbn in HA, H1. cbn [c_consumed]. exact (IH _ _ _ HA H1).
    - destruct (lc_expose L HR) as [(s' & m & E1 & Hm & H1)|(s' & e & a1 & E1 & H0 & H1)];
        rewrite E1 in HD; cbn [bind] in HD; injection HD as <- <-; cbn [c_answer] in HA;
        destruct HA as [(m' & Hm' & Em & HA)|(e' & a2 & H2 & Ee & HA)]; try discriminate.
      + injection Em as <-. cbn [c_consumed]. exact (IH _ _ _ HA H1).
      + cbn [c_consumed]. refine (Over _ _ HA _).
        cbn [into_slice_consumer bulk_consumer_of c_expose] in E1. unfold into_slice_expose in E1.
        destruct (length (is_slice s) =? is_offset s); [injection E1 as <- _; exact (is_rel_forget HR)|].
        apply bind_Ret_inv in E1 as (? & _ & E1). discriminate.
    - injection HD as <- <-. cbn [c_answer] in HA. cbn [c_permitted] in HP. cbn [c_consumed].
      exact (IH _ _ _ HA (lc_write L ys HR HP)).
    - cbn [c_permitted] in HP. destruct HP as [Hk Hn]. pose proof (lc_consume_slots L n0 HR Hk Hn) as H1.
      assert (Hle : length a + length w <= n) by (destruct HR as [G0 (G1 & G2 & G3 & _)]; cbn in G1, G2; lia).
      assert (HF : m_feed (filling_machine T unit n) (firstn n0 w) a = (a ++ firstn n0 w, n0, None)).
      { rewrite filling_feed by lia. rewrite firstn_length, (Nat.min_l n0 (length w)), Nat.min_r by lia.
        replace (length a + n0 <=? n) with true by (symmetry; apply Nat.leb_le; lia).
        rewrite (firstn_all2 (n := n - length a)) by (rewrite firstn_length; lia). reflexivity. }
      rewrite HF in H1. destruct H1 as (s' & E1 & H1). rewrite E1 in HD. cbn [bind] in HD. injection HD as <- <-.
      cbn [c_answer] in HA. rewrite HF in HA. destruct HA as [_ HA]. cbn [c_consumed].
      specialize (IH _ _ _ HA H1). rewrite <- app_assoc in IH. exact IH.
    - cbn [c_permitted] in HP. destruct (lc_bulk L buf HR HP) as [(s' & m & a1 & E1 & Hm & HF & H1)|(s' & m & e & a1 & E1 & HF & H1)];
        rewrite E1 in HD; cbn [bind] in HD; injection HD as <- <-; cbn [c_answer] in HA;
        destruct HA as [(m' & a2 & Hm' & HF' & Em & HA)|(m' & e' & a2 & HF' & Ee & HA)]; try discriminate.
      + injection Em as <-. rewrite HF in HF'. injection HF' as <-. cbn [c_consumed]. specialize (IH _ _ _ HA H1).
        rewrite filling_feed in HF by lia. rewrite firstn_length, (Nat.min_l m (length buf)) in HF by lia.
        injection HF as HF Hmn _. rewrite (firstn_all2 (n := n - length a)) in HF by (rewrite firstn_length; lia).
        rewrite <- HF, <- app_assoc in IH. exact IH.
      + cbn [c_consumed]. refine (Over _ _ HA _). rewrite (is_bulk_err _ HR E1). exact (is_rel_forget HR).
  Qed.

  Lemma untouched_history : forall l n (s : into_slice T) a k h s' a', untouched l s -> no_writes h ->
    c_history into_slice_consumer (filling_machine T unit n) s (CActive a k []) h s' a' -> untouched l s'.
  Proof.
    intros l n s a k h s' a' HU HN H. remember (CActive a k []) as x eqn:Hx. revert a k Hx HU HN.
    induction H as [s x|s x o s1 r x1 h s2 x2 HP HD HA HH IH]; intros a k -> HU HN; [exact HU|].
    inversion_clear HN as [|? ? HN1 HN2].
    assert (U : untouched l s1 /\ forall b j v, x1 = CActive b j v -> v = []).
    { destruct o; cbn [c_do] in HD; cbn [fst] in HN1; try contradiction HN1.
      - apply bind_Ret_inv in HD as ([s' r'] & E1 & [= <- <-]). split; [exact (untouched_consume _ HU E1)|].
        cbn [c_answer] in HA. destruct HA as [_ ->]. intros b j v. cbn. destruct (length a <? n); cbn; congruence.
      - injection HD as <- <-. split; [exact HU|]. cbn in HA. destruct HA as [_ ->]. congruence.
      - injection HD as <- <-. split; [exact HU|]. cbn in HA. destruct HA as [_ ->]. congruence.
      - apply bind_Ret_inv in HD as ([s' r'] & E1 & [= <- <-]).
        cbn [into_slice_consumer bulk_consumer_of c_expose] in E1. unfold into_slice_expose in E1. split.
        + destruct (length (is_slice s) =? is_offset s); [injection E1 as <- _; exact HU|].
          apply bind_Ret_inv in E1 as (? & _ & [= <- _]). exact HU.
        + cbn in HA. destruct HA as [(? & _ & _ & ->)|(? & ? & _ & _ & ->)]; congruence.
      - cbn [c_permitted] in HP. destruct HP as [_ HP]. cbn in HP. assert (n0 = 0) as -> by lia.
        cbn in HD. unfold into_slice_consume_slots in HD. cbn in HD. rewrite Nat.add_0_r in HD. injection HD as <- <-.
        destruct s; split; [exact HU|]. cbn in HA. destruct HA as [_ ->]. congruence.
      - apply bind_Ret_inv in HD as ([s' r'] & E1 & [= <- <-]). split; [exact (untouched_bulk _ HU E1)|].
        cbn [c_answer] in HA. destruct HA as [(? & ? & _ & _ & _ & ->)|(? & ? & ? & _ & _ & ->)]; congruence. }
    destruct U as [U1 U2]. destruct x1 as [b j v|b].
    - rewrite (U2 _ _ _ eq_refl) in *. exact (IH _ _ eq_refl U1 HN2).
    - destruct (ended_history HH) as [_ ->]. exact U1.
  Qed.

  (** *** Pipes *)
  Section Pipes.
    Context {SP PE : Type} (P : bulk_producer SP T unit PE) (R : SP -> list T -> res unit PE -> nat -> Prop) (D : SP -> Prop).
    Context (L : lawful_producer P R D).

    Lemma into_slice_pipes : forall fuel sp xs last k l, R sp xs last k -> length xs < fuel ->
      let r := if length xs <=? length l then match last with Ok _ => Ok tt | Err e => Err (PipeProducer e) end
               else Err (PipeConsumer tt) in
      (exists sp' s, pipe fuel P into_slice_consumer sp (into_slice_new l) = Ret (sp', s, r) /\
         into_slice_as_ref s = firstn (length l) xs ++ skipn (length xs) l /\
         into_slice_get_offset s = Nat.min (length xs) (length l)) /\
      (exists sp' s, bulk_pipe fuel P into_slice_consumer sp (into_slice_new l) = Ret (sp', s, r) /\
         into_slice_as_ref s = firstn (length l) xs ++ skipn (length xs) l /\
         into_slice_get_offset s = Nat.min (length xs) (length l)).
    Proof.
      intros fuel sp xs last k l HP Hf r.
      pose proof (@pipe_lawful _ _ _ _ _ _ _ _ _ _ _ _ _ _ L (into_slice_lawful (length l)) xs fuel sp last k _ _ _ _ HP (is_rel_new l) Hf) as H1.
      pose proof (@bulk_pipe_lawful _ _ _ _ _ _ _ _ _ _ _ _ _ _ L (into_slice_lawful (length l)) fuel xs sp last k _ _ _ _ HP (is_rel_new l) Hf) as H2.
      unfold pipe_effect in H1, H2. rewrite filling_feed in H1, H2 by (cbn; lia). cbn [length Nat.add app] in H1, H2. rewrite Nat.sub_0_r in H1, H2.
      assert (Done : forall s, untouched l s -> is_rel (length l) s (firstn (length l) xs) 0 [] ->
        into_slice_as_ref s = firstn (length l) xs ++ skipn (length xs) l /\ into_slice_get_offset s = Nat.min (length xs) (length l)).
      { intros s HU HR. rewrite (untouched_read HU HR). rewrite firstn_length. destruct (is_rel_read HR) as (_ & -> & _).
        rewrite firstn_length, Nat.min_comm. split; [|reflexivity]. f_equal.
        destruct (le_lt_dec (length xs) (length l)); [now rewrite Nat.min_l by lia|].
        rewrite Nat.min_r, !skipn_all2 by lia. reflexivity. }
      assert (K1 : forall sp' s q, pipe fuel P into_slice_consumer sp (into_slice_new l) = Ret (sp', s, q) -> untouched l s).
      { intros sp' s q. apply (pipe_keeps P into_slice_consumer (untouched l)); [exact (@untouched_consume l)| |exact (untouched_new l)].
        intros f s0 s' q' HU [= <- <-]. exact HU. }
      assert (K2 : forall sp' s q, bulk_pipe fuel P into_slice_consumer sp (into_slice_new l) = Ret (sp', s, q) -> untouched l s).
      { intros sp' s q. apply (bulk_pipe_keeps P into_slice_consumer (untouched l)); [|exact (@untouched_bulk l)|exact (untouched_new l)].
        intros f s0 s' q' HU [= <- <-]. exact HU. }
      destruct (Nat.leb_spec (length xs) (length l)) as [Hle|Hgt]; subst r.
      - destruct last as [[]|e]; cbn in H1, H2.
        + destruct H1 as (sp1 & sc1 & E1 & _ & HR1). destruct H2 as (sp2 & sc2 & ? & E2 & _ & _ & HR2).
          split; [exists sp1, sc1|exists sp2, sc2]; (split; [assumption|]); apply Done; eauto.
        + destruct H1 as (sp1 & sc1 & E1 & _ & HR1). destruct H2 as (sp2 & sc2 & ? & E2 & _ & _ & HR2).
          split; [exists sp1, sc1|exists sp2, sc2]; (split; [assumption|]); apply Done; eauto.
      - destruct H1 as (sp1 & sc1 & E1 & _ & HR1). destruct H2 as (sp2 & sc2 & ? & E2 & _ & _ & HR2).
        split; [exists sp1, sc1|exists sp2, sc2]; (split; [assumption|]); apply Done; eauto.
    Qed.
  End Pipes.
End IntoSlice.

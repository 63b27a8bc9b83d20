(** Proofs about the [Arbitrary] instances. *)
From Coq Require Import Bool List Arith NArith Lia.
From Coq.Init Require Import Byte.
From Coq.Strings Require Byte.
From Verif Require Import Prelude Traits BasicModel AdaptorModel PublicModel ScramblerModel ArbitraryModel ArbitrarySpec.
Import ListNotations.
Open Scope nat_scope.

Lemma hint_right_then : forall X Y (g : gen X) (k : X -> list byte -> option (Y * list byte)) h1 h2,
  hint_right (g_arbitrary g) h1 -> (forall x, hint_right (k x) h2) -> hint_right (arbitrary_then g k) (hint_and h1 h2).
Proof.
  intros X Y g k h1 h2 H1 H2 u y rest H. unfold arbitrary_then in H.
  destruct (g_arbitrary g u) as [[x v]|] eqn:Eg; [|discriminate].
  destruct (H1 _ _ _ Eg) as (a & -> & La & Ua). destruct (H2 _ _ _ _ H) as (b & -> & Lb & Ub).
  exists (a ++ b). split; [now rewrite app_assoc|]. rewrite app_length. split.
  - intros Hr. cbn. assert (b ++ rest <> []) by (destruct b; [exact Hr|discriminate]). specialize (La H0). specialize (Lb Hr). lia.
  - unfold hint_and. cbn. destruct (snd h1), (snd h2); auto. lia.
Qed.

Lemma hint_right_done : forall X (x : X), hint_right (fun u => Some (x, u)) (0, Some 0).
Proof. intros X x u y rest H. inversion H; subst. exists []. cbn. repeat split; lia. Qed.

Lemma hint_right_weaken : forall X (f : list byte -> option (X * list byte)) h1 h2, hint_right f h1 ->
  fst h2 <= fst h1 -> match snd h1, snd h2 with Some a, Some b => a <= b | _, None => True | None, Some _ => False end -> hint_right f h2.
Proof.
  intros X f h1 h2 H L U u x rest E. destruct (H _ _ _ E) as (a & -> & La & Ua). exists a. split; [reflexivity|]. split.
  - intros Hr. specialize (La Hr). lia.
  - destruct (snd h1), (snd h2); try tauto; lia.
Qed.

Lemma and_all_hint : forall h1 h2 h3 h4, and_all [h1; h2; h3; h4] = hint_and h1 (hint_and h2 (hint_and h3 (hint_and h4 (0, Some 0)))).
Proof.
  intros [l1 u1] [l2 u2] [l3 u3] [l4 u4]. cbn. unfold hint_and; cbn. f_equal; [lia|].
  destruct u1, u2, u3, u4; cbn; try reflexivity. f_equal. lia.
Qed.

Lemma consumer_hint : forall T F E (g_err : gen E) g_usize g_sizes g_pattern,
  hints_right g_err -> hints_right g_usize -> hints_right g_sizes -> hints_right g_pattern ->
  hints_right (@test_consumer_gen T F E g_err g_usize g_sizes g_pattern).
Proof.
  intros T F E ge gu gs gp He Hu Hs Hp depth. cbn [test_consumer_gen g_size_hint g_arbitrary]. rewrite and_all_hint.
  repeat (apply hint_right_then; [auto|intros]). apply hint_right_done.
Qed.

Lemma yielder_hint : forall g_pattern, hints_right g_pattern -> hints_right (yielder_gen g_pattern).
Proof.
  intros gp Hp depth. cbn [yielder_gen g_size_hint g_arbitrary].
  apply (hint_right_weaken _ _ (hint_and (g_size_hint gp depth) (0, Some 0))).
  - apply hint_right_then; [auto|intros; apply hint_right_done].
  - cbn. lia.
  - cbn. destruct (snd (g_size_hint gp depth)); [lia|exact Logic.I].
Qed.

Lemma producer_hint : forall T F E (g_err : gen E) g_usize g_sizes g_pattern (g_items : gen (list T)) (g_last : gen (res F E)) depth,
  hint_right (g_arbitrary g_items) (g_size_hint g_items depth) -> hint_right (g_arbitrary g_last) (g_size_hint g_last depth) ->
  hint_right (g_arbitrary g_sizes) (g_size_hint g_sizes depth) -> hint_right (g_arbitrary g_pattern) (g_size_hint g_pattern depth) ->
  hint_right (g_arbitrary (test_producer_gen g_err g_usize g_sizes g_pattern g_items g_last))
    (and_all [g_size_hint g_items depth; g_size_hint g_last depth; g_size_hint g_sizes depth; g_size_hint g_pattern depth]).
Proof.
  intros. cbn [test_producer_gen g_arbitrary]. rewrite and_all_hint.
  repeat (apply hint_right_then; [auto|intros]). apply hint_right_done.
Qed.

(** ** What is generated *)

Lemma then_some : forall X Y (g : gen X) (k : X -> list byte -> option (Y * list byte)) u r, arbitrary_then g k u = Some r ->
  exists x v, g_arbitrary g u = Some (x, v) /\ k x v = Some r.
Proof. intros X Y g k u r H. unfold arbitrary_then in H. destruct (g_arbitrary g u) as [[x v]|]; [|discriminate]. eauto. Qed.

Lemma generated_consumer : forall T F E (g_err : gen E) g_usize g_sizes g_pattern u s rest, only_positive g_sizes ->
  g_arbitrary (@test_consumer_gen T F E g_err g_usize g_sizes g_pattern) u = Some (s, rest) ->
  exists err n sizes pattern, positive sizes /\ s = invariant_new (nested_tc_build err n (Some sizes) (Some pattern)).
Proof.
  intros T F E ge gu gs gp u s rest P H. cbn in H.
  apply then_some in H as (err & u1 & _ & H). apply then_some in H as (n & u2 & _ & H).
  apply then_some in H as (sizes & u3 & Es & H). apply then_some in H as (pattern & u4 & _ & H).
  inversion H; subst. exists err, n, sizes, pattern. split; [exact (P _ _ _ Es)|reflexivity].
Qed.

Lemma generated_producer : forall T F E (g_err : gen E) g_usize g_sizes g_pattern (g_items : gen (list T)) (g_last : gen (res F E)) u s rest,
  only_positive g_sizes ->
  g_arbitrary (test_producer_gen g_err g_usize g_sizes g_pattern g_items g_last) u = Some (s, rest) ->
  exists items last sizes pattern, positive sizes /\ s = invariant_new (nested_tp_build items last (Some sizes) (Some pattern)).
Proof.
  intros T F E ge gu gs gp gi gl u s rest P H. cbn in H.
  apply then_some in H as (items & u1 & _ & H). apply then_some in H as (last & u2 & _ & H).
  apply then_some in H as (sizes & u3 & Es & H). apply then_some in H as (pattern & u4 & _ & H).
  inversion H; subst. exists items, last, sizes, pattern. split; [exact (P _ _ _ Es)|reflexivity].
Qed.

Lemma generates_then : forall X Y (g : gen X) (k : X -> list byte -> option (Y * list byte)) x y,
  generates (g_arbitrary g) x -> generates (k x) y -> generates (arbitrary_then g k) y.
Proof.
  intros X Y g k x y [a Ha] [b Hb]. exists (a ++ b). intros rest. rewrite <- app_assoc. unfold arbitrary_then. rewrite Ha. apply Hb.
Qed.

Lemma generates_done : forall X (x : X), generates (fun u => Some (x, u)) x.
Proof. intros X x. exists []. reflexivity. Qed.

Lemma consumer_every : forall T F E (g_err : gen E) g_usize g_sizes g_pattern err n sizes pattern,
  generates (g_arbitrary g_err) err -> generates (g_arbitrary g_usize) n ->
  generates (g_arbitrary g_sizes) sizes -> generates (g_arbitrary g_pattern) pattern ->
  generates (g_arbitrary (@test_consumer_gen T F E g_err g_usize g_sizes g_pattern))
    (invariant_new (nested_tc_build err n (Some sizes) (Some pattern))).
Proof.
  intros. cbn [test_consumer_gen g_arbitrary].
  repeat (eapply generates_then; [eassumption|]). apply generates_done.
Qed.

Lemma producer_every : forall T F E (g_err : gen E) g_usize g_sizes g_pattern (g_items : gen (list T)) (g_last : gen (res F E))
    items last sizes pattern,
  generates (g_arbitrary g_items) items -> generates (g_arbitrary g_last) last ->
  generates (g_arbitrary g_sizes) sizes -> generates (g_arbitrary g_pattern) pattern ->
  generates (g_arbitrary (test_producer_gen g_err g_usize g_sizes g_pattern g_items g_last))
    (invariant_new (nested_tp_build items last (Some sizes) (Some pattern))).
Proof.
  intros. cbn [test_producer_gen g_arbitrary].
  repeat (eapply generates_then; [eassumption|]). apply generates_done.
Qed.

(** ** The instances of the crate *)

Lemma next_byte_used : forall u b rest, next_byte u = (b, rest) -> exists used, u = used ++ rest /\ (rest <> [] -> length used = 1) /\ length used <= 1.
Proof.
  intros [|c u] b rest H; inversion H; subst.
  - exists []. repeat split; auto. congruence.
  - now exists [b].
Qed.

Lemma bool_hint : hints_right bool_gen.
Proof.
  intros depth u x rest H. cbn in H |- *. destruct (next_byte u) as [b v] eqn:Eb. inversion H; subst.
  destruct (next_byte_used _ _ _ Eb) as (used & -> & L & U). exists used. repeat split; auto. intros Hr. rewrite (L Hr). auto.
Qed.

Lemma take_number_used : forall n u x rest, take_number n u = (x, rest) ->
  exists used, u = used ++ rest /\ (rest <> [] -> length used = n) /\ length used <= n.
Proof.
  induction n as [|n IH]; intros u x rest H; cbn in H.
  - inversion H; subst. exists []. repeat split; auto.
  - destruct (next_byte u) as [b v] eqn:Eb. destruct (take_number n v) as [y w] eqn:Et. inversion H; subst.
    destruct (next_byte_used _ _ _ Eb) as (a & -> & La & Ua). destruct (IH _ _ _ Et) as (c & -> & Lc & Uc).
    exists (a ++ c). split; [now rewrite app_assoc|]. rewrite app_length. split; [|lia].
    intros Hr. assert (c ++ rest <> []) by (destruct c; [exact Hr|discriminate]). rewrite La, Lc; auto.
Qed.

Lemma usize_hint : hints_right usize_gen.
Proof.
  intros depth u x rest H. cbn [usize_gen g_arbitrary g_size_hint fst snd] in H |- *.
  destruct (take_number 8 u) as [n v] eqn:Et. inversion H; subst.
  destruct (take_number_used _ _ _ _ Et) as (used & -> & L & U). exists used. repeat split; auto. intros Hr. rewrite (L Hr). auto.
Qed.

Lemma non_zero_positive : forall u n rest, g_arbitrary non_zero_gen u = Some (n, rest) -> 1 <= n.
Proof.
  intros u n rest H. cbn [non_zero_gen g_arbitrary] in H. apply then_some in H as (m & v & _ & H).
  destruct (Nat.eqb_spec m 0); inversion H; subst. lia.
Qed.

Lemma take_elements_positive : forall fuel u sizes rest, take_elements fuel non_zero_gen u = Some (sizes, rest) -> positive sizes.
Proof.
  induction fuel as [|fuel IH]; intros u sizes rest H; cbn [take_elements] in H; [discriminate|].
  apply then_some in H as ([] & v & _ & H).
  - apply then_some in H as (n & w & En & H). destruct (take_elements fuel non_zero_gen w) as [[xs z]|] eqn:Et; inversion H; subst.
    constructor; [exact (non_zero_positive _ _ _ En)|exact (IH _ _ _ Et)].
  - inversion H; subst. constructor.
Qed.

Lemma take_elements_used : forall X (g : gen X) fuel, (forall u x rest, g_arbitrary g u = Some (x, rest) -> exists used, u = used ++ rest) ->
  forall u xs rest, take_elements fuel g u = Some (xs, rest) -> exists used, u = used ++ rest.
Proof.
  intros X g fuel Hg. induction fuel as [|fuel IH]; intros u xs rest H; cbn [take_elements] in H; [discriminate|].
  apply then_some in H as ([] & v & Eb & H); destruct (bool_hint 0 _ _ _ Eb) as (a & -> & _).
  - apply then_some in H as (n & w & En & H). destruct (take_elements fuel g w) as [[ys z]|] eqn:Et; inversion H; subst.
    destruct (Hg _ _ _ En) as (b & ->). destruct (IH _ _ _ Et) as (c & ->). exists (a ++ b ++ c). now rewrite <- !app_assoc.
  - inversion H; subst. now exists a.
Qed.

Lemma box_hint : forall X (g : gen X), hints_right g -> hints_right (box_gen g).
Proof.
  intros X g Hg depth u xs rest H. cbn [box_gen g_arbitrary g_size_hint fst snd] in H |- *.
  destruct (fun G => take_elements_used _ g _ G _ _ _ H) as (used & ->).
  { intros v x r E. destruct (Hg 0 _ _ _ E) as (a & -> & _). now exists a. }
  exists used. repeat split; auto. intros. lia.
Qed.

Lemma unit_hint : hints_right unit_gen.
Proof. intros depth. apply hint_right_done. Qed.

Lemma non_zero_hint : hints_right non_zero_gen.
Proof.
  intros depth. change (g_size_hint non_zero_gen depth) with (hint_and (8, Some 8) (0, Some 0)).
  apply (hint_right_then _ _ usize_gen); [apply (usize_hint 0)|]. intros n.
  destruct (n =? 0); [intros u x rest H; discriminate|apply hint_right_done].
Qed.

Lemma result_hint : forall F E (g_ok : gen F) (g_err : gen E), hints_right g_ok -> hints_right g_err -> hints_right (result_gen g_ok g_err).
Proof.
  intros F E go ge Ho He depth. cbn [result_gen g_arbitrary g_size_hint].
  apply hint_right_then; [apply (bool_hint depth)|]. intros [].
  - eapply hint_right_weaken; [apply hint_right_then; [apply (Ho depth)|intros; apply hint_right_done]| |].
    + cbn. lia.
    + cbn. destruct (snd (g_size_hint go depth)), (snd (g_size_hint ge depth)); auto. lia.
  - eapply hint_right_weaken; [apply hint_right_then; [apply (He depth)|intros; apply hint_right_done]| |].
    + cbn. lia.
    + cbn. destruct (snd (g_size_hint go depth)), (snd (g_size_hint ge depth)); auto. lia.
Qed.

(** The bound on the number of elements is never reached. *)
Lemma take_elements_fuel : forall X (g : gen X), hints_right g ->
  forall fuel u, length u < fuel -> take_elements fuel g u = g_arbitrary (box_gen g) u.
Proof.
  intros X g Hg. cbn [box_gen g_arbitrary].
  assert (K : forall n fuel u, length u < n -> length u < fuel -> take_elements fuel g u = take_elements n g u).
  { induction n as [|n IH]; intros fuel u Hn Hf; [lia|]. destruct fuel as [|fuel]; [lia|]. cbn [take_elements].
    unfold arbitrary_then. destruct (g_arbitrary bool_gen u) as [[b v]|] eqn:Eb; [|reflexivity]. destruct b; [|reflexivity].
    assert (Hv : length v < n /\ length v < fuel).
    { destruct u as [|c u]; cbn in Eb; [discriminate|]. inversion Eb; subst. cbn in Hn, Hf. lia. }
    destruct (g_arbitrary g v) as [[x w]|] eqn:Eg; [|reflexivity].
    destruct (Hg 0 _ _ _ Eg) as (a & -> & _). rewrite app_length in Hv. rewrite (IH fuel w) by lia. reflexivity. }
  intros fuel u H. apply K; lia.
Qed.

Lemma take_elements_cons : forall X (g : gen X) fuel u, take_elements (S fuel) g (x01 :: u) =
  match g_arbitrary g u with
  | Some (x, u) => match take_elements fuel g u with Some (xs, u) => Some (x :: xs, u) | None => None end
  | None => None
  end.
Proof. reflexivity. Qed.

Lemma generates_box : forall X (g : gen X) xs, hints_right g -> Forall (generates (g_arbitrary g)) xs -> generates (g_arbitrary (box_gen g)) xs.
Proof.
  intros X g xs Hg H. induction H as [|x xs [a Ha] _ [b Hb]].
  - exists [x00]. intros rest. reflexivity.
  - exists (x01 :: a ++ b). intros rest. rewrite <- app_comm_cons, <- app_assoc. unfold box_gen at 1. cbn [g_arbitrary].
    change (length (x01 :: a ++ b ++ rest)) with (S (length (a ++ b ++ rest))). rewrite take_elements_cons, Ha.
    rewrite (take_elements_fuel _ _ Hg) by (rewrite !app_length; lia). rewrite Hb. reflexivity.
Qed.

Lemma generates_bool : forall b, generates (g_arbitrary bool_gen) b.
Proof. intros []; [exists [x01]|exists [x00]]; reflexivity. Qed.

Lemma take_number_every : forall n x, (x < 256 ^ N.of_nat n)%N -> exists bytes, forall rest, take_number n (bytes ++ rest) = (x, rest).
Proof.
  induction n as [|n IH]; intros x H.
  - exists []. intros rest. cbn in H |- *. f_equal. lia.
  - assert (Hd : (x / 256 < 256 ^ N.of_nat n)%N).
    { apply N.div_lt_upper_bound; [lia|]. rewrite Nat2N.inj_succ, N.pow_succ_r in H by lia. exact H. }
    destruct (IH _ Hd) as [bytes Hb].
    assert (Hm : (x mod 256 < 256)%N) by (apply N.mod_lt; lia).
    destruct (Byte.of_N (x mod 256)) as [c|] eqn:Ec.
    + exists (c :: bytes). intros rest. cbn [app take_number next_byte]. rewrite Hb. f_equal.
      apply Byte.to_of_N in Ec. rewrite Ec. rewrite (N.div_mod x 256) at 3 by lia. lia.
    + exfalso. apply Byte.of_N_None_iff in Ec. lia.
Qed.

Lemma generates_u32 : forall x, (x < 2 ^ 32)%N -> generates (g_arbitrary u32_gen) x.
Proof.
  intros x H. destruct (take_number_every 4 x) as [bytes Hb].
  { change (256 ^ N.of_nat 4)%N with (2 ^ 32)%N. exact H. }
  exists bytes. intros rest. unfold u32_gen, g_arbitrary. now rewrite Hb.
Qed.

Lemma generates_usize : forall n, (N.of_nat n < 2 ^ 64)%N -> generates (g_arbitrary usize_gen) n.
Proof.
  intros n H. destruct (take_number_every 8 (N.of_nat n)) as [bytes Hb].
  { change (256 ^ N.of_nat 8)%N with (2 ^ 64)%N. exact H. }
  exists bytes. intros rest. unfold usize_gen, g_arbitrary. rewrite Hb. now rewrite Nat2N.id.
Qed.

Lemma generates_non_zero : forall n, (N.of_nat n < 2 ^ 64)%N -> 1 <= n -> generates (g_arbitrary non_zero_gen) n.
Proof.
  intros n H H1. cbn [non_zero_gen g_arbitrary]. eapply generates_then; [exact (generates_usize n H)|].
  destruct (Nat.eqb_spec n 0); [lia|]. apply generates_done.
Qed.

(** ** The operations of the scramblers *)

Lemma pscr_op_every : forall (g_u32 : gen N) (g_non_zero : gen nat) op,
  (forall x, (x < 2 ^ 32)%N -> generates (g_arbitrary g_u32) x) ->
  match op with ScConsiderProduced n => generates (g_arbitrary g_non_zero) n | _ => True end ->
  generates (pscr_op_arbitrary g_u32 g_non_zero) op.
Proof.
  intros gu gz op Hu Ho. unfold pscr_op_arbitrary. destruct op as [|n|].
  - eapply (generates_then _ _ _ _ 0%N); [apply Hu; reflexivity|]. apply generates_done.
  - eapply (generates_then _ _ _ _ (2 ^ 31)%N); [apply Hu; reflexivity|]. cbn. eapply generates_then; [exact Ho|]. apply generates_done.
  - eapply (generates_then _ _ _ _ (2 ^ 32 - 1)%N); [apply Hu; reflexivity|]. apply generates_done.
Qed.

Lemma cscr_op_every : forall (g_u32 : gen N) (g_non_zero : gen nat) op,
  (forall x, (x < 2 ^ 32)%N -> generates (g_arbitrary g_u32) x) ->
  match op with ScConsumeSlots n => generates (g_arbitrary g_non_zero) n | _ => True end ->
  generates (cscr_op_arbitrary g_u32 g_non_zero) op.
Proof.
  intros gu gz op Hu Ho. unfold cscr_op_arbitrary. destruct op as [|n|].
  - eapply (generates_then _ _ _ _ 0%N); [apply Hu; reflexivity|]. apply generates_done.
  - eapply (generates_then _ _ _ _ (2 ^ 31)%N); [apply Hu; reflexivity|]. cbn. eapply generates_then; [exact Ho|]. apply generates_done.
  - eapply (generates_then _ _ _ _ (2 ^ 32 - 1)%N); [apply Hu; reflexivity|]. apply generates_done.
Qed.

Lemma pscr_op_positive : forall (g_u32 : gen N) (g_non_zero : gen nat) u n rest,
  (forall u n rest, g_arbitrary g_non_zero u = Some (n, rest) -> 1 <= n) ->
  pscr_op_arbitrary g_u32 g_non_zero u = Some (ScConsiderProduced n, rest) -> 1 <= n.
Proof.
  intros gu gz u n rest Hz H. unfold pscr_op_arbitrary in H. apply then_some in H as (x & v & _ & H).
  destruct (variant_of x 3) as [|[]]; try discriminate. apply then_some in H as (m & w & Em & H). inversion H; subst. eauto.
Qed.

Lemma cscr_op_positive : forall (g_u32 : gen N) (g_non_zero : gen nat) u n rest,
  (forall u n rest, g_arbitrary g_non_zero u = Some (n, rest) -> 1 <= n) ->
  cscr_op_arbitrary g_u32 g_non_zero u = Some (ScConsumeSlots n, rest) -> 1 <= n.
Proof.
  intros gu gz u n rest Hz H. unfold cscr_op_arbitrary in H. apply then_some in H as (x & v & _ & H).
  destruct (variant_of x 3) as [|[]]; try discriminate. apply then_some in H as (m & w & Em & H). inversion H; subst. eauto.
Qed.

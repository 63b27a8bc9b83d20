(** Proofs about error values. *)
From Coq Require Import Bool List Arith String Ascii Decimal DecimalString DecimalNat DecimalFacts Lia.
From Verif Require Import Prelude Traits CodecModel ErrorModel ErrorSpec.
Set Implicit Arguments.
Local Open Scope string_scope.

Lemma digits_of_uint : forall d acc, digits acc (NilEmpty.string_of_uint d) = Some (Nat.of_uint_acc d acc).
Proof.
  induction d; intros acc; cbn [NilEmpty.string_of_uint digits]; [reflexivity|..];
    (match goal with |- (if ?b then _ else _) = _ => replace b with true by (vm_compute; reflexivity) end);
    rewrite IHd; cbn [Nat.of_uint_acc]; f_equal; f_equal; rewrite Nat.tail_mul_spec;
    (match goal with |- context [nat_of_ascii ?c - 48] => let v := eval vm_compute in (nat_of_ascii c - 48) in change (nat_of_ascii c - 48) with v end); lia.
Qed.

Lemma display_usize_numeral : forall n, numeral (display_usize n) n.
Proof.
  intros n. unfold numeral, display_usize. split; [|split].
  - rewrite digits_of_uint. fold (Nat.of_uint (Nat.to_uint n)). now rewrite Unsigned.of_to.
  - intros H. pose proof (Unsigned.to_of (Nat.to_uint n)) as N. rewrite Unsigned.of_to in N.
    pose proof (unorm_nonnil (Nat.to_uint n)) as NN. rewrite <- N in NN. destruct (Nat.to_uint n); cbn in H; congruence.
  - intros s' H. pose proof (Unsigned.of_to n) as G. pose proof (Unsigned.to_of (Nat.to_uint n)) as T. rewrite G in T.
    destruct (Nat.to_uint n) as [|d|d|d|d|d|d|d|d|d|d] eqn:E; cbn in H; try discriminate. injection H as <-.
    assert (T' : unorm d = D0 d) by (rewrite <- (Unsigned.to_of (D0 d)) in T; rewrite <- unorm_D0; rewrite <- (Unsigned.to_of (D0 d)), G; exact E).
    assert (DD : nzhead d = Nil \/ nzhead d <> Nil) by (destruct (nzhead d); [left; reflexivity|..]; right; discriminate). destruct DD as [Z|Z].
    + apply unorm_0 in Z. rewrite Z in T'. now injection T' as <-.
    + rewrite (unorm_nzhead _ Z) in T'. destruct (nzhead_nonzero _ _ T').
Qed.

Lemma numeral_det : forall s n m, numeral s n -> numeral s m -> n = m.
Proof. intros s n m (H & _) (G & _). rewrite H in G. now injection G. Qed.

Lemma app_assoc_str : forall a b c : string, (a ++ b) ++ c = a ++ (b ++ c).
Proof. induction a as [|x a IH]; intros b c; cbn; [reflexivity|now rewrite IH]. Qed.

Lemma reports_intro : forall before n, reports ((before ++ " ") ++ display_usize n ++ " items") n.
Proof. intros before n. exists before, (display_usize n). split; [apply app_assoc_str|apply display_usize_numeral]. Qed.

(** *** A text reports at most one number *)

Fixpoint spaceless (s : string) : Prop := match s with EmptyString => True | String c s => c <> " "%char /\ spaceless s end.

Lemma digits_spaceless : forall s acc n, digits acc s = Some n -> spaceless s.
Proof.
  induction s as [|c s IH]; intros acc n H; cbn [spaceless digits] in *; [exact I|].
  destruct ((48 <=? nat_of_ascii c) && (nat_of_ascii c <=? 57))%nat eqn:E; [|discriminate].
  split; [|exact (IH _ _ H)]. intros ->. vm_compute in E. discriminate.
Qed.

Lemma spaceless_app : forall a b, ~ spaceless (a ++ String " " b).
Proof. induction a as [|c a IH]; intros b H; cbn in H; [destruct H as [H _]; now apply H|destruct H as [_ H]; exact (IH _ H)]. Qed.

Lemma after_last_space : forall b1 b2 s1 s2, b1 ++ String " " s1 = b2 ++ String " " s2 -> spaceless s1 -> spaceless s2 -> s1 = s2.
Proof.
  induction b1 as [|c b1 IH]; intros [|d b2] s1 s2 H H1 H2; cbn in H; injection H.
  - auto.
  - intros -> _. destruct (spaceless_app _ _ H1).
  - intros <- _. destruct (spaceless_app _ _ H2).
  - intros H' _. exact (IH _ _ _ H' H1 H2).
Qed.

Lemma length_app_str : forall a b, String.length (a ++ b) = String.length a + String.length b.
Proof. induction a as [|c a IH]; intros b; cbn; auto. Qed.

Lemma app_cancel_r_str : forall t a b, a ++ t = b ++ t -> a = b.
Proof.
  intros t. induction a as [|c a IH]; intros [|d b] H; cbn in H; auto.
  - apply (f_equal String.length) in H. cbn in H. rewrite length_app_str in H. lia.
  - apply (f_equal String.length) in H. cbn in H. rewrite length_app_str in H. lia.
  - injection H as <- H. f_equal. exact (IH _ H).
Qed.

Lemma reports_det : forall text n m, reports text n -> reports text m -> n = m.
Proof.
  intros text n m (b1 & s1 & -> & H1) (b2 & s2 & H & H2).
  rewrite <- !app_assoc_str in H. apply app_cancel_r_str in H. rewrite !app_assoc_str in H. cbn [append] in H.
  pose proof H1 as (D1 & _). pose proof H2 as (D2 & _).
  rewrite (@after_last_space _ _ _ _ H (@digits_spaceless _ _ _ D1) (@digits_spaceless _ _ _ D2)) in H1.
  exact (@numeral_det _ _ _ H1 H2).
Qed.

Lemma cale_reports : forall E (err : consume_at_least_error E), reports (cale_display err) (cale_count err).
Proof. intros E err. exact (reports_intro "The consumer failed to consume sufficiently many items, it only consumed" _). Qed.

Lemma pale_reports : forall F E (err : produce_at_least_error F E), reports (pale_display err) (pale_count err).
Proof.
  intros F E [n [f|e]]; cbn [pale_display pale_reason pale_count].
  - exact (reports_intro "The producer was unable to produce sufficiently many items due to emitting its final item, it stopped after producing" _).
  - exact (reports_intro "The producer was unable to produce sufficiently many items due to an error, it stopped after producing" _).
Qed.

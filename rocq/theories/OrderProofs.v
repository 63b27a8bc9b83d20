(** Proofs about derived comparisons and hashes. *)
From Coq Require Import Bool List Arith ZArith Lia.
From Coq.Init Require Import Byte.
From Verif Require Import Prelude Traits BasicModel AdaptorModel ScramblerModel CodecModel EndianModel EndianProofs ErrorModel EqualityModel EqualitySpec
  OrderModel OrderSpec.
Import ListNotations.
Set Implicit Arguments.

(** ** Lawful partial orders *)

Lemma comp_opp_eq : forall c, CompOpp c = Eq -> c = Eq.
Proof. now intros [| |]. Qed.

(** From a total comparison function. *)
Lemma total_intro : forall A (O : compared A),
  (forall x y, c_eq O x y = true <-> c_cmp O x y = Eq) -> (forall x y, c_partial_cmp O x y = Some (c_cmp O x y)) ->
  (forall x y, c_cmp O y x = CompOpp (c_cmp O x y)) ->
  (forall x y z, c_cmp O x y = Lt -> c_cmp O y z = Lt -> c_cmp O x z = Lt) ->
  (forall x y z, c_cmp O x y = Eq -> c_cmp O x z = c_cmp O y z) -> lawful_total O.
Proof.
  intros A O He Hp Ho Hl Hc. split; [|split; [|exact Hp]].
  - constructor.
    + intros x y H. apply He in H. apply He. rewrite Ho, H. reflexivity.
    + intros x y z H1 H2. apply He in H1, H2. apply He. now rewrite (Hc _ _ z H1).
    + intros x y. rewrite He, Hp. split; [now intros ->|now injection 1].
    + intros x y. rewrite !Hp, Ho. reflexivity.
    + intros x y z. rewrite !Hp. intros H1 H2. injection H1 as H1. injection H2 as H2. now rewrite (Hl _ _ _ H1 H2).
    + intros x y z H. apply He in H. rewrite !Hp. now rewrite (Hc _ _ z H).
  - intros x. apply He. pose proof (Ho x x) as H. destruct (c_cmp O x x); [reflexivity|discriminate..].
Qed.

Section Two.
  Context {A B C : Type} (p : A -> B) (OB : compared B) (q : A -> C) (OC : compared C).
  Notation O := (derive_two p OB q OC).

  Lemma two_partial : lawful_partial OB -> lawful_partial OC -> lawful_partial O.
  Proof.
    intros LB LC. constructor; cbn.
    - intros x y H. apply andb_prop in H as [H1 H2]. now rewrite (lo_sym LB _ _ H1), (lo_sym LC _ _ H2).
    - intros x y z H K. apply andb_prop in H as [H1 H2]. apply andb_prop in K as [K1 K2]. now rewrite (lo_trans LB _ _ _ H1 K1), (lo_trans LC _ _ _ H2 K2).
    - intros x y. rewrite andb_true_iff, (lo_agree LB), (lo_agree LC). split.
      + intros [-> H]. exact H.
      + unfold then_partial. destruct (c_partial_cmp OB (p x) (p y)) as [[| |]|]; try discriminate. now split.
    - intros x y. rewrite (lo_dual LB (p x)), (lo_dual LC (q x)). destruct (c_partial_cmp OB (p x) (p y)) as [[| |]|]; reflexivity.
    - intros x y z. unfold then_partial.
      destruct (c_partial_cmp OB (p x) (p y)) as [[| |]|] eqn:E1; try discriminate; intros H1;
      destruct (c_partial_cmp OB (p y) (p z)) as [[| |]|] eqn:E2; try discriminate; intros H2.
      + apply (lo_agree LB) in E1. rewrite (lo_cong LB _ _ (p z) E1), E2. exact (lo_less LC _ _ _ H1 H2).
      + apply (lo_agree LB) in E1. rewrite (lo_cong LB _ _ (p z) E1), E2. reflexivity.
      + apply (lo_agree LB) in E2. apply (lo_sym LB) in E2. assert (E3 : c_partial_cmp OB (p x) (p z) = Some Lt).
        { rewrite (lo_dual LB (p z) (p x)), (lo_cong LB _ _ (p x) E2), <- (lo_dual LB (p y) (p x)). exact E1. }
        rewrite E3. reflexivity.
      + rewrite (lo_less LB _ _ _ E1 E2). reflexivity.
    - intros x y z H. apply andb_prop in H as [H1 H2]. now rewrite (lo_cong LB _ _ (p z) H1), (lo_cong LC _ _ (q z) H2).
  Qed.

  Lemma two_total : lawful_total OB -> lawful_total OC -> lawful_total O.
  Proof.
    intros (LB & RB & TB) (LC & RC & TC). split; [now apply two_partial|]. cbn. split.
    - intros x. now rewrite RB, RC.
    - intros x y. rewrite TB, TC. destruct (c_cmp OB (p x) (p y)); reflexivity.
  Qed.

  Lemma two_faithful : (forall x y, p x = p y -> q x = q y -> x = y) -> faithful OB -> faithful OC -> faithful O.
  Proof. intros HI EB EC x y. cbn. rewrite andb_true_iff, (EB _ _), (EC _ _). split; [intros [H1 H2]; auto|intros ->; auto]. Qed.

  Lemma two_agrees : hash_agrees OB -> hash_agrees OC -> hash_agrees O.
  Proof. intros HB HC x y H. cbn in *. apply andb_prop in H as [H1 H2]. now rewrite (HB _ _ H1), (HC _ _ H2). Qed.

  Lemma two_tells : hash_tells OB -> hash_tells OC -> hash_tells O.
  Proof.
    intros HB HC x y r r' H. cbn in *. rewrite <- !app_assoc in H. apply HB in H as [H1 H]. apply HC in H as [H2 H]. now rewrite H1, H2.
  Qed.
End Two.

Section One.
  Context {A B : Type} (p : A -> B) (OB : compared B).
  Notation O := (derive_one p OB).
  Lemma one_partial : lawful_partial OB -> lawful_partial O.
  Proof. intros L. constructor; cbn; intros x y; [apply (lo_sym L)|intros z; apply (lo_trans L)|apply (lo_agree L)|apply (lo_dual L)|intros z; apply (lo_less L)|intros z; apply (lo_cong L)]. Qed.
  Lemma one_total : lawful_total OB -> lawful_total O.
  Proof. intros (L & R & T). split; [now apply one_partial|]. split; intros x; [apply R|intros y; apply T]. Qed.
  Lemma one_faithful : (forall x y, p x = p y -> x = y) -> faithful OB -> faithful O.
  Proof. intros HI E x y. cbn. rewrite (E _ _). split; [apply HI|now intros ->]. Qed.
  Lemma one_agrees : hash_agrees OB -> hash_agrees O.
  Proof. intros H x y. apply H. Qed.
  Lemma one_tells : hash_tells OB -> hash_tells O.
  Proof. intros H x y. apply H. Qed.
End One.

(** ** Types of the standard library *)

Lemma usize_total : lawful_total compared_usize.
Proof.
  apply total_intro; cbn; intros x y.
  - rewrite Nat.eqb_eq, Nat.compare_eq_iff. reflexivity.
  - reflexivity.
  - rewrite Nat.compare_antisym. reflexivity.
  - intros z. rewrite !Nat.compare_lt_iff. lia.
  - intros z H. apply Nat.compare_eq_iff in H. now subst.
Qed.
Lemma usize_faithful : faithful compared_usize.
Proof. intros x y. apply Nat.eqb_eq. Qed.
Lemma usize_tells : hash_tells compared_usize.
Proof. intros x y r r' H. cbn in H. injection H as -> ->. split; [apply Nat.eqb_refl|reflexivity]. Qed.

Lemma bool_total : lawful_total compared_bool.
Proof. apply total_intro; cbn; intros [|] [|]; cbn; try (intros [|]; cbn); try split; try congruence; reflexivity. Qed.
Lemma bool_faithful : faithful compared_bool.
Proof. intros x y. apply eqb_true_iff. Qed.
Lemma bool_tells : hash_tells compared_bool.
Proof. intros [|] [|] r r' H; cbn in H; try discriminate; injection H as ->; now split. Qed.

Lemma int_total : forall i, lawful_total (compared_int i).
Proof.
  intros i. apply total_intro; cbn; intros x y.
  - rewrite Z.eqb_eq, Z.compare_eq_iff. reflexivity.
  - reflexivity.
  - rewrite Z.compare_antisym. reflexivity.
  - intros z. rewrite !Z.compare_lt_iff. lia.
  - intros z H. apply Z.compare_eq_iff in H. now rewrite H.
Qed.
Lemma int_faithful : forall i, faithful (compared_int i).
Proof. intros i x y. cbn. rewrite Z.eqb_eq. split; [apply num_eq|now intros ->]. Qed.
Lemma int_tells : forall i, hash_tells (compared_int i).
Proof. intros i x y r r' H. cbn in H. injection H as E ->. split; [cbn; now apply Z.eqb_eq|reflexivity]. Qed.

Lemma faithful_agrees : forall A (O : compared A), faithful O -> hash_agrees O.
Proof. intros A O E x y H. apply E in H. now rewrite H. Qed.

Section Slices.
  Context {T : Type} (O : compared T).
  Lemma slice_total : lawful_total O -> lawful_total (compared_slice O).
  Proof.
    intros (L & R & HT).
    assert (HE : forall x y, c_eq O x y = true <-> c_cmp O x y = Eq).
    { intros x y. rewrite (lo_agree L), HT. split; [now injection 1|now intros ->]. }
    apply total_intro; cbn.
    - induction x as [|a x IH]; intros [|b y]; cbn; try (split; discriminate); [now split|].
      rewrite andb_true_iff, HE, IH. unfold then_cmp. destruct (c_cmp O a b); split; try discriminate; try tauto; intros [H _]; discriminate.
    - induction x as [|a x IH]; intros [|b y]; cbn; try reflexivity. rewrite HT, IH. destruct (c_cmp O a b); reflexivity.
    - induction x as [|a x IH]; intros [|b y]; cbn; try reflexivity. pose proof (lo_dual L a b) as H. rewrite !HT in H. cbn in H. injection H as H. rewrite H, IH.
      destruct (c_cmp O a b); reflexivity.
    - induction x as [|a x IH]; intros [|b y] [|c z]; cbn; try discriminate; try reflexivity. unfold then_cmp.
      destruct (c_cmp O a b) eqn:E1; try discriminate; intros H1; destruct (c_cmp O b c) eqn:E2; try discriminate; intros H2.
      + pose proof (lo_cong L a b c (proj2 (HE _ _) E1)) as H. rewrite !HT in H. injection H as ->. rewrite E2. eauto.
      + pose proof (lo_cong L a b c (proj2 (HE _ _) E1)) as H. rewrite !HT in H. injection H as ->. rewrite E2. reflexivity.
      + assert (E3 : c_cmp O a c = Lt).
        { pose proof (lo_dual L c a) as H. rewrite !HT in H. cbn in H. injection H as ->.
          pose proof (lo_cong L c b a (lo_sym L _ _ (proj2 (HE _ _) E2))) as H. rewrite !HT in H. injection H as ->.
          pose proof (lo_dual L a b) as H. rewrite !HT in H. cbn in H. injection H as ->. rewrite E1. reflexivity. }
        rewrite E3. reflexivity.
      + pose proof (lo_less L a b c) as H. rewrite !HT, E1, E2 in H. specialize (H eq_refl eq_refl). injection H as ->. reflexivity.
    - induction x as [|a x IH]; intros [|b y] [|c z]; cbn; try discriminate; try reflexivity. unfold then_cmp.
      destruct (c_cmp O a b) eqn:E1; try discriminate. intros H.
      pose proof (lo_cong L a b c (proj2 (HE _ _) E1)) as K. rewrite !HT in K. injection K as ->. now rewrite (IH _ z H).
  Qed.
  Lemma slice_faithful : faithful O -> faithful (compared_slice O).
  Proof.
    intros E. cbn. intros x. induction x as [|a x IH]; intros [|b y]; cbn; try (split; discriminate); [now split|].
    rewrite andb_true_iff, (E _ _). cbn in IH. rewrite IH. split; [now intros [-> ->]|now injection 1].
  Qed.
  Lemma slice_tells : hash_tells O -> hash_tells (compared_slice O).
  Proof.
    intros H x y r r' E. cbn in E. injection E as E1 E. cbn.
    revert y E1 E. induction x as [|a x IH]; intros [|b y] E1 E; try discriminate; [now split|]. cbn in E. rewrite <- !app_assoc in E.
    apply H in E as [E2 E]. cbn in E1. injection E1 as E1. destruct (IH y E1 E) as [E3 E4]. cbn. now rewrite E2, E3.
  Qed.
End Slices.

Section Options.
  Context {T : Type} (O : compared T).
  Lemma option_partial : lawful_partial O -> lawful_partial (compared_option O).
  Proof.
    intros L. constructor; cbn.
    - intros [x|] [y|]; cbn; try discriminate; [apply (lo_sym L)|reflexivity].
    - intros [x|] [y|] [z|]; cbn; try discriminate; [apply (lo_trans L)|reflexivity].
    - intros [x|] [y|]; cbn; try (split; discriminate); [apply (lo_agree L)|now split].
    - intros [x|] [y|]; cbn; try reflexivity. apply (lo_dual L).
    - intros [x|] [y|] [z|]; cbn; try discriminate; try reflexivity. apply (lo_less L).
    - intros [x|] [y|] [z|]; cbn; try discriminate; try reflexivity. apply (lo_cong L).
  Qed.
  Lemma option_total : lawful_total O -> lawful_total (compared_option O).
  Proof. intros (L & R & HT). split; [now apply option_partial|]. split; [intros [x|]; cbn; auto|intros [x|] [y|]; cbn; auto]. Qed.
  Lemma option_faithful : faithful O -> faithful (compared_option O).
  Proof. intros E [x|] [y|]; cbn; try (split; discriminate); [rewrite (E _ _); split; [now intros ->|now injection 1]|now split]. Qed.
  Lemma option_agrees : hash_agrees O -> hash_agrees (compared_option O).
  Proof. intros H [x|] [y|]; cbn; try discriminate; [intros E; now rewrite (H _ _ E)|reflexivity]. Qed.
  Lemma option_tells : hash_tells O -> hash_tells (compared_option O).
  Proof.
    intros H [x|] [y|] r r' E; cbn in *; try discriminate; [injection E as E; exact (H _ _ _ _ E)|injection E as ->; now split].
  Qed.
End Options.

(** ** Types of the library *)

Lemma blame_total : lawful_total compared_blame.
Proof. apply total_intro; cbn; intros [|] [|]; cbn; try (intros [|]; cbn); try split; try congruence; reflexivity. Qed.

Lemma partial_everywhere : everywhere (@lawful_partial).
Proof.
  constructor.
  - intros. apply two_partial; [assumption|]. apply two_partial; [apply bool_total|apply usize_total].
  - intros. apply two_partial; [assumption|apply usize_total].
  - intros. now apply two_partial.
  - intros. apply two_partial; [assumption|now apply option_partial].
  - intros. now apply one_partial.
  - apply two_partial; [apply slice_total, bool_total|apply usize_total].
  - apply blame_total.
  - intros. apply one_partial, int_total.
Qed.
Lemma total_everywhere : everywhere (@lawful_total).
Proof.
  constructor.
  - intros. apply two_total; [assumption|]. apply two_total; [apply bool_total|apply usize_total].
  - intros. apply two_total; [assumption|apply usize_total].
  - intros. now apply two_total.
  - intros. apply two_total; [assumption|now apply option_total].
  - intros. now apply one_total.
  - apply two_total; [apply slice_total, bool_total|apply usize_total].
  - apply blame_total.
  - intros. apply one_total, int_total.
Qed.
Lemma faithful_everywhere : everywhere (@faithful).
Proof.
  constructor.
  - intros S O E x y. cbn. rewrite !andb_true_iff, (E _ _), eqb_true_iff, Nat.eqb_eq.
    destruct x, y; cbn. split; [now intros (-> & -> & ->)|injection 1; auto].
  - intros. apply two_faithful; [|assumption|exact usize_faithful]. intros [] []; cbn; congruence.
  - intros. apply two_faithful; try assumption. intros [] []; cbn; congruence.
  - intros. apply two_faithful; [|assumption|now apply option_faithful]. intros [] []; cbn; congruence.
  - intros. now apply one_faithful.
  - apply two_faithful; [intros [] []; cbn; congruence|apply slice_faithful, bool_faithful|exact usize_faithful].
  - intros [|] [|]; cbn; split; try discriminate; reflexivity.
  - intros. apply one_faithful; [auto|apply int_faithful].
Qed.
Lemma agrees_everywhere : everywhere (@hash_agrees).
Proof.
  constructor.
  - intros. apply two_agrees; [assumption|]. apply two_agrees; apply faithful_agrees; [exact bool_faithful|exact usize_faithful].
  - intros. apply two_agrees; [assumption|]. apply faithful_agrees, usize_faithful.
  - intros. now apply two_agrees.
  - intros. apply two_agrees; [assumption|now apply option_agrees].
  - intros. now apply one_agrees.
  - apply faithful_agrees, (ev_yielder faithful_everywhere).
  - apply faithful_agrees, (ev_blame faithful_everywhere).
  - intros. apply faithful_agrees, (ev_endian faithful_everywhere).
Qed.
Lemma tells_everywhere : everywhere (@hash_tells).
Proof.
  constructor.
  - intros. apply two_tells; [assumption|]. apply two_tells; [exact bool_tells|exact usize_tells].
  - intros. apply two_tells; [assumption|exact usize_tells].
  - intros. now apply two_tells.
  - intros. apply two_tells; [assumption|now apply option_tells].
  - intros. now apply one_tells.
  - apply two_tells; [apply slice_tells, bool_tells|exact usize_tells].
  - intros [|] [|] r r' H; cbn in H; try discriminate; injection H as ->; now split.
  - intros. apply one_tells, int_tells.
Qed.

(** The order is lexicographic. *)
Lemma two_less : forall A B C (p : A -> B) (OB : compared B) (q : A -> C) (OC : compared C) x y,
  c_cmp (derive_two p OB q OC) x y = Lt <->
  c_cmp OB (p x) (p y) = Lt \/ c_cmp OB (p x) (p y) = Eq /\ c_cmp OC (q x) (q y) = Lt.
Proof.
  intros A B C p OB q OC x y. cbn. unfold then_cmp. destruct (c_cmp OB (p x) (p y)).
  - split; [intros H; right; auto|intros [H|[_ H]]; [discriminate|exact H]].
  - split; [left; reflexivity|reflexivity].
  - split; [discriminate|intros [H|[H _]]; discriminate].
Qed.

(** ** Encodings *)

Lemma below_cons : forall b c xs ys, length xs = length ys -> below (b :: xs) (c :: ys) <->
  (byte_val b < byte_val c)%Z \/ b = c /\ below xs ys.
Proof.
  intros b c xs ys Hl. split.
  - intros (p & x & xs' & y & ys' & E1 & E2 & H). destruct p as [|z p].
    + injection E1 as -> ->. injection E2 as -> ->. now left.
    + injection E1 as -> ->. injection E2 as -> ->. right. split; [reflexivity|]. exists p, x, xs', y, ys'. auto.
  - intros [H|[-> (p & x & xs' & y & ys' & -> & -> & H)]].
    + exists [], b, xs, c, ys. auto.
    + exists (c :: p), x, xs', y, ys'. auto.
Qed.

Lemma below_val : forall xs ys, length xs = length ys -> (below xs ys <-> (le_val (rev xs) < le_val (rev ys))%Z).
Proof.
  assert (G : forall xs ys, le_val (xs ++ ys) = (le_val xs + 256 ^ Z.of_nat (length xs) * le_val ys)%Z).
  { induction xs as [|x xs IH]; intros ys; [cbn [List.app le_val length]; change (256 ^ Z.of_nat 0)%Z with 1%Z; lia|].
    cbn [List.app le_val length]. rewrite IH, Nat2Z.inj_succ, Z.pow_succ_r by lia. lia. }
  induction xs as [|x xs IH]; intros [|y ys] Hl; try discriminate.
  - cbn. split; [|lia]. intros (p & a & xs' & b & ys' & E & _). destruct p; discriminate.
  - cbn in Hl. injection Hl as Hl. rewrite below_cons by exact Hl. cbn [rev]. rewrite !G. cbn [le_val]. rewrite !rev_length, Hl.
    pose proof (le_val_bound (rev xs)) as B1. pose proof (le_val_bound (rev ys)) as B2. rewrite rev_length, Hl in B1. rewrite rev_length in B2.
    specialize (IH ys Hl). set (m := (256 ^ Z.of_nat (length ys))%Z) in *. split.
    + intros [H|[-> H]]; [nia|]. apply IH in H. lia.
    + intros H. destruct (Z.compare_spec (byte_val x) (byte_val y)) as [E|E|E]; [right|left; exact E|nia].
      apply byte_val_inj in E. split; [exact E|]. subst y. apply IH. lia.
Qed.

Lemma unsigned_val : forall i (v : num i), is_signed i = false -> le_val (le_bytes (BITS i / 8) (num_val v)) = num_val v.
Proof.
  intros i [z H] Hs. cbn [num_val]. rewrite le_val_bytes, pow_bits. apply Z.mod_small. unfold in_range, MIN, MAX in H. rewrite Hs in H.
  apply andb_prop in H as [H1 H2]. apply Z.leb_le in H1, H2. lia.
Qed.

Lemma sorted_less : forall w a b, In w sorted_encodings -> c_cmp (compared_endian w) a b = Lt <-> below (to_bytes w a) (to_bytes w b).
Proof.
  intros w a b Hw. rewrite below_val by (now rewrite !length_to_bytes). unfold compared_endian, derive_one, compared_int. cbn [c_cmp]. rewrite Z.compare_lt_iff.
  cbn in Hw. destruct Hw as [<-|[<-|[<-|[<-|[<-|[]]]]]]; unfold to_bytes, to_be_bytes; rewrite !rev_involutive;
  rewrite !unsigned_val by reflexivity; reflexivity.
Qed.

(** ** Properties *)

Lemma pattern_less : forall p q, slice_cmp compared_bool p q = Lt <-> pattern_before p q.
Proof.
  induction p as [|a p IH]; intros [|b q]; cbn.
  - split; [discriminate|]. intros [(b & r & H)|(c & r & r' & H & _)]; [discriminate|now destruct c].
  - split; [intros _; left; exists b, q; reflexivity|reflexivity].
  - split; [discriminate|]. intros [(b & r & H)|(c & r & r' & _ & H)]; [discriminate|now destruct c].
  - assert (HS : a = b -> pattern_before (a :: p) (b :: q) <-> pattern_before p q).
    { intros <-. split.
      - intros [(c & r & H)|(c & r & r' & H1 & H2)].
        + injection H as ->. left. now exists c, r.
        + destruct c as [|d c]; [injection H1 as -> ->; discriminate|]. injection H1 as -> ->. injection H2 as ->. right. now exists c, r, r'.
      - intros [(c & r & ->)|(c & r & r' & -> & ->)]; [left; now exists c, r|right; now exists (a :: c), r, r']. }
    destruct a, b; cbn.
    + rewrite IH. symmetry. now apply HS.
    + split; [discriminate|]. intros [(c & r & H)|(c & r & r' & H1 & H2)]; [discriminate|]. destruct c; [discriminate|]. injection H1 as <- _. discriminate.
    + split; [|reflexivity]. intros _. right. now exists [], p, q.
    + rewrite IH. symmetry. now apply HS.
Qed.

Lemma pattern_equal : forall p q, slice_cmp compared_bool p q = Eq <-> p = q.
Proof.
  intros p q. pose proof (slice_faithful bool_faithful p q) as H. pose proof (slice_total bool_total) as (L & _ & HT).
  rewrite (lo_agree L), HT in H. cbn in H. rewrite <- H. split; [now intros ->|now injection 1].
Qed.

Lemma orders :
  (forall S (O : compared S) x y,
     c_cmp (compared_limit O) x y = Lt <->
     c_cmp O (lim_inner x) (lim_inner y) = Lt \/ c_cmp O (lim_inner x) (lim_inner y) = Eq /\ lim_remaining x < lim_remaining y) /\
  (forall S W (O : compared S) (OW : compared W) x y,
     c_cmp (compared_map_item O OW) x y = Lt <->
     c_cmp O (mi_inner x) (mi_inner y) = Lt \/
     c_cmp O (mi_inner x) (mi_inner y) = Eq /\ c_cmp OW (mi_closure x) (mi_closure y) = Lt) /\
  (forall S G (O : compared S) (OG : compared G) x y,
     c_cmp (compared_with_fun O OG) x y = Lt <->
     c_cmp O (wf_inner x) (wf_inner y) = Lt \/
     c_cmp O (wf_inner x) (wf_inner y) = Eq /\
     exists g, wf_fun y = Some g /\ (wf_fun x = None \/ exists f, wf_fun x = Some f /\ c_cmp OG f g = Lt)) /\
  (forall S (O : compared S) x y,
     c_cmp (compared_invariant O) x y = Lt <->
     c_cmp O (inv_inner x) (inv_inner y) = Lt \/
     c_cmp O (inv_inner x) (inv_inner y) = Eq /\
     (inv_active x = false /\ inv_active y = true \/ inv_active x = inv_active y /\ inv_exposed x < inv_exposed y)) /\
  (forall S (O : compared S) x y, c_cmp (compared_invariant_noop O) x y = c_cmp O (inv_inner x) (inv_inner y)) /\
  (forall S (O : compared S) x y, c_cmp (compared_buf_reader O) x y = c_cmp O x y) /\
  (forall x y, c_cmp compared_blame x y = Lt <-> x = TheirFault /\ y = OurFault) /\
  (forall w a b, c_cmp (compared_endian w) a b = Lt <-> (num_val a < num_val b)%Z) /\
  (forall x y, c_cmp compared_yielder x y = Lt <->
     pattern_before (y_pattern x) (y_pattern y) \/ y_pattern x = y_pattern y /\ y_index x < y_index y).
Proof.
  split; [|split; [|split; [|split; [|split; [|split; [|split; [|split]]]]]]].
  - intros S O x y. unfold compared_limit. rewrite two_less. cbn [compared_usize c_cmp]. now rewrite Nat.compare_lt_iff.
  - intros S W O OW x y. apply two_less.
  - intros S G O OG x y. unfold compared_with_fun. rewrite two_less. cbn [compared_option c_cmp].
    assert (H : match wf_fun x with Some f => match wf_fun y with Some g => c_cmp OG f g | None => Gt end
                | None => match wf_fun y with Some _ => Lt | None => Eq end end = Lt <->
      exists g, wf_fun y = Some g /\ (wf_fun x = None \/ exists f, wf_fun x = Some f /\ c_cmp OG f g = Lt)).
    { destruct (wf_fun x) as [f|], (wf_fun y) as [g|]; split; try discriminate.
      - intros H. exists g. split; [reflexivity|]. right. now exists f.
      - intros (h & E & [E'|(f' & E' & H)]); [discriminate|]. congruence.
      - intros (h & E & _). discriminate.
      - intros _. exists g. auto.
      - reflexivity.
      - intros (h & E & _). discriminate. }
    now rewrite H.
  - intros S O x y. unfold compared_invariant. rewrite two_less. rewrite two_less. cbn [compared_bool compared_usize c_cmp].
    rewrite Nat.compare_lt_iff. destruct (inv_active x), (inv_active y); cbn; intuition congruence.
  - reflexivity.
  - reflexivity.
  - intros [|] [|]; cbn; split; try discriminate; try tauto; intros [H1 H2]; discriminate.
  - intros w a b. unfold compared_endian, derive_one, compared_int. cbn [c_cmp]. apply Z.compare_lt_iff.
  - intros x y. unfold compared_yielder. rewrite two_less. cbn [compared_slice compared_usize c_cmp].
    now rewrite Nat.compare_lt_iff, pattern_less, pattern_equal.
Qed.

Lemma equalities :
  (forall A B ea eb, decides ea -> decides eb -> decides (@pipe_error_eq A B ea eb)) /\
  (forall E ee, decides ee -> decides (@cale_eq E ee)) /\
  (forall F E ef ee, decides ef -> decides ee -> decides (@pale_eq F E ef ee)) /\
  (forall F E O ef ee eo, decides ef -> decides ee -> decides eo -> decides (@decode_error_eq F E O ef ee eo)) /\
  decides pscr_op_eq /\ decides cscr_op_eq.
Proof.
  split; [|split; [|split; [|split; [|split]]]].
  - intros A B ea eb Ha Hb [a|b] [a'|b']; cbn; try (split; discriminate); [rewrite (Ha _ _)|rewrite (Hb _ _)]; (split; [now intros ->|now injection 1]).
  - intros E ee He [n r] [n' r']. unfold cale_eq. cbn. rewrite andb_true_iff, Nat.eqb_eq, (He _ _). split; [now intros [-> ->]|now injection 1].
  - intros F E ef ee Hf He [n r] [n' r']. unfold pale_eq. cbn. rewrite andb_true_iff, Nat.eqb_eq. destruct r, r'; rewrite ?(Hf _ _), ?(He _ _).
    all: split; [intros [H1 H2]; congruence|intros H; injection H as H1 H2; try discriminate; now split].
  - intros F E O ef ee eo Hf He Ho [f|e|o] [f'|e'|o']; cbn; try (split; discriminate); rewrite ?(Hf _ _), ?(He _ _), ?(Ho _ _); (split; [now intros ->|now injection 1]).
  - intros [|n|] [|m|]; cbn; try (split; discriminate); try (now split). rewrite Nat.eqb_eq. split; [now intros ->|now injection 1].
  - intros [|n|] [|m|]; cbn; try (split; discriminate); try (now split). rewrite Nat.eqb_eq. split; [now intros ->|now injection 1].
Qed.

Lemma not_below : forall b c xs ys, (byte_val c < byte_val b)%Z -> ~ below (b :: xs) (c :: ys).
Proof.
  intros b c xs ys H (p & x & xs' & y & ys' & E1 & E2 & K). destruct p as [|z p].
  - injection E1 as -> _. injection E2 as -> _. lia.
  - injection E1 as -> _. injection E2 as -> _. lia.
Qed.

Lemma encodings :
  (forall w a b, c_eq (compared_endian w) a b = true <-> to_bytes w a = to_bytes w b) /\
  (forall w, (forall a b, c_cmp (compared_endian w) a b = Lt <-> below (to_bytes w a) (to_bytes w b)) <-> In w sorted_encodings).
Proof.
  split.
  - intros w a b. rewrite (ev_endian faithful_everywhere w a b). split; [now intros ->|].
    intros H. rewrite <- (from_to_bytes w a), <- (from_to_bytes w b). now rewrite H.
  - intros w. split; [|intros Hw a b; now apply sorted_less]. intros H.
    assert (N : forall a b, c_cmp (compared_endian w) a b = Lt -> ~ below (to_bytes w a) (to_bytes w b) -> In w sorted_encodings).
    { intros a b H1 H2. destruct (H2 (proj1 (H a b) H1)). }
    destruct w; try (cbn; tauto); clear H;
      try (apply (N (num_of _ 1) (num_of _ 256)); [reflexivity|]; apply not_below; reflexivity);
      apply (N (num_of _ (-1)) (num_of _ 1)); (reflexivity || (apply not_below; reflexivity)).
Qed.

Lemma builds : forall S (O : compared S) x y,
  (c_eq (compared_invariant O) x y = true -> c_eq (compared_invariant_noop O) x y = true) /\
  (c_cmp (compared_invariant_noop O) x y = Lt -> c_cmp (compared_invariant O) x y = Lt) /\
  (inv_active x = inv_active y -> inv_exposed x = inv_exposed y ->
   c_eq (compared_invariant O) x y = c_eq (compared_invariant_noop O) x y /\
   c_partial_cmp (compared_invariant O) x y = c_partial_cmp (compared_invariant_noop O) x y /\
   c_cmp (compared_invariant O) x y = c_cmp (compared_invariant_noop O) x y).
Proof.
  intros S O x y. cbn. split; [intros H; now apply andb_prop in H|]. split; [now intros ->|]. intros -> ->.
  rewrite eqb_reflx, Nat.eqb_refl, Nat.compare_refl. assert (HB : bool_cmp (inv_active y) (inv_active y) = Eq) by now destruct (inv_active y).
  rewrite HB. cbn. split; [now rewrite andb_true_r|]. split; [destruct (c_partial_cmp O (inv_inner x) (inv_inner y)) as [[| |]|]; reflexivity|destruct (c_cmp O (inv_inner x) (inv_inner y)); reflexivity].
Qed.

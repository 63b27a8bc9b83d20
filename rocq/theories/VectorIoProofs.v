(** Proofs about the generation of test vectors on a file system with failures. *)
From Coq Require Import Bool List Arith String Lia.
From Coq.Init Require Import Byte.
From Verif Require Import Prelude ListFacts Traits Contracts ContractFacts BasicModel CodecModel CodecSpec CodecProofs
  VectorModel VectorSpec VectorProofs VectorIoModel VectorIoSpec.
Import ListNotations.
Set Implicit Arguments.
Local Open Scope string_scope.

Definition key (f : string * nat * list byte) : string * nat := fst f.

Lemma write_file_same : forall d n c fs, write_file d n c fs d n = Some c.
Proof. intros. unfold write_file. now rewrite String.eqb_refl, Nat.eqb_refl. Qed.
Lemma write_file_other : forall d n c fs d' n', (d', n') <> (d, n) -> write_file d n c fs d' n' = fs d' n'.
Proof.
  intros d n c fs d' n' H. unfold write_file. destruct (String.eqb_spec d' d) as [->|]; [|reflexivity].
  destruct (Nat.eqb_spec n' n) as [->|]; [congruence|reflexivity].
Qed.

Lemma firstn_In_weak : forall A (x : A) m l, In x (firstn m l) -> In x l.
Proof. intros A x m l H. rewrite <- (firstn_skipn m l). apply in_or_app. now left. Qed.

Lemma NoDup_app_intro : forall A (l1 l2 : list A), NoDup l1 -> NoDup l2 -> (forall x, In x l1 -> ~ In x l2) -> NoDup (l1 ++ l2).
Proof.
  intros A. induction l1 as [|x l1 IH]; intros l2 H1 H2 H; [exact H2|]. apply NoDup_cons_iff in H1 as [Hn H1]. cbn [app].
  constructor; [|apply IH; auto; intros y Hy; apply H; now right].
  rewrite in_app_iff. intros [Hin|Hin]; [contradiction|]. exact (H x (or_introl eq_refl) Hin).
Qed.

Section Runs.
  Context (faults : nat -> fault).

  (** Writing files one after the other. *)
  Fixpoint run_files (files : list (string * nat * list byte)) : io unit :=
    match files with
    | [] => io_lift (Ret tt)
    | (d, n, c) :: files => do _ <- put faults d n c; run_files files
    end.

  Definition add_dir (d : string) (dirs : string -> bool) : string -> bool := fun d' => (d' =? d) || dirs d'.

  Lemma put_eq : forall d n c w,
    put faults d n c w =
      match faults (w_time w) with
      | Works =>
          match faults (w_time w + 1) with
          | Works => (Ret tt, mkworld (add_dir d (w_dirs w)) (write_file d n c (w_files w)) (w_time w + 1 + 1))
          | Fails => (Panic, mkworld (add_dir d (w_dirs w)) (w_files w) (w_time w + 1 + 1))
          | FailsAfter k => (Panic, mkworld (add_dir d (w_dirs w)) (write_file d n (firstn k c) (w_files w)) (w_time w + 1 + 1))
          end
      | _ => (Panic, mkworld (w_dirs w) (w_files w) (w_time w + 1))
      end.
  Proof.
    intros d n c w. unfold put, write_file_create_parent_dirs, create_dir_all, fs_write, io_bind.
    destruct (faults (w_time w)); cbn [io_unwrap io_lift w_dirs w_files w_time]; try reflexivity.
    unfold add_dir at 1. rewrite String.eqb_refl. cbn [orb].
    destruct (faults (w_time w + 1)); reflexivity.
  Qed.

  Lemma run_files_app : forall f1 f2 w, run_files (f1 ++ f2)%list w = io_bind (run_files f1) (fun _ => run_files f2) w.
  Proof.
    induction f1 as [|[[d n] c] f1 IH]; intros f2 w; [reflexivity|]. cbn [run_files app]. unfold io_bind at 1 3.
    unfold io_bind at 1. destruct (put faults d n c w) as [[[]| |] w1]; try reflexivity. rewrite IH. reflexivity.
  Qed.

  Lemma run_files_spec : forall files w, NoDup (map key files) ->
    exists o w' m, run_files files w = (o, w') /\ m <= List.length files /\
      holds_first files m (w_files w) (w_files w') /\
      (forall d, w_dirs w d = true -> w_dirs w' d = true) /\
      (forall d n c, In (d, n, c) (firstn m files) -> w_dirs w' d = true) /\
      ((o = Ret tt /\ m = List.length files /\ (forall t, w_time w <= t < w_time w + 2 * List.length files -> faults t = Works)) \/
       (o = Panic /\ m < List.length files /\
        exists t, w_time w + 2 * m <= t < w_time w + 2 * m + 2 /\ faults t <> Works)).
  Proof.
    induction files as [|[[d n] c] files IH]; intros w ND.
    - exists (Ret tt), w, 0. refine (conj eq_refl (conj (le_n 0) (conj _ (conj (fun d H => H) (conj _ _))))).
      + split; [intros d n c H; destruct H|auto].
      + intros d n c H. destruct H.
      + left. splits; auto. cbn. lia.
    - cbn [map] in ND. apply NoDup_cons_iff in ND as [Hn ND]. cbn [run_files]. unfold io_bind. rewrite put_eq.
      assert (Stop : forall w', (forall d, w_dirs w d = true -> w_dirs w' d = true) ->
        (exists t, w_time w <= t < w_time w + 2 /\ faults t <> Works) ->
        (w_files w' = w_files w \/ exists k, w_files w' = write_file d n (firstn k c) (w_files w)) ->
        exists o w'' m, (@Panic unit, w') = (o, w'') /\ m <= List.length ((d, n, c) :: files) /\
          holds_first ((d, n, c) :: files) m (w_files w) (w_files w'') /\
          (forall d, w_dirs w d = true -> w_dirs w'' d = true) /\
          (forall d' n' c', In (d', n', c') (firstn m ((d, n, c) :: files)) -> w_dirs w'' d' = true) /\
          ((o = Ret tt /\ m = List.length ((d, n, c) :: files) /\
            (forall t, w_time w <= t < w_time w + 2 * List.length ((d, n, c) :: files) -> faults t = Works)) \/
           (o = Panic /\ m < List.length ((d, n, c) :: files) /\
            exists t, w_time w + 2 * m <= t < w_time w + 2 * m + 2 /\ faults t <> Works))).
      { intros w' Hd (t & Ht & Hf) Hw. exists Panic, w', 0. refine (conj eq_refl (conj (Nat.le_0_l _) (conj _ (conj Hd (conj (fun d n c H => False_ind _ H) _))))).
        - split; [intros d' n' c' H; destruct H|]. intros d' n' _. destruct Hw as [->|(k & ->)]; [auto|].
          destruct (string_dec d' d) as [->|Hne]; [destruct (Nat.eq_dec n' n) as [->|Hne]|].
          + right. exists c, k. split; [reflexivity|]. apply write_file_same.
          + left. apply write_file_other. congruence.
          + left. apply write_file_other. congruence.
        - right. splits; auto; [cbn; lia|]. exists t. split; [lia|exact Hf]. }
      assert (Hadd : forall d', w_dirs w d' = true -> add_dir d (w_dirs w) d' = true).
      { intros d' H. unfold add_dir. rewrite H. apply orb_true_r. }
      destruct (faults (w_time w)) eqn:F1;
        [|apply Stop; [auto|exists (w_time w); split; [lia|congruence]|auto]..].
      destruct (faults (w_time w + 1)) as [| |k] eqn:F2;
        [|apply Stop; [exact Hadd|exists (w_time w + 1); split; [lia|congruence]|cbn; eauto]..].
      edestruct (IH (mkworld (add_dir d (w_dirs w)) (write_file d n c (w_files w)) (w_time w + 1 + 1)) ND)
        as (o & w' & m & E & Hm & [Hh1 Hh2] & Hd1 & Hd2 & Hc). rewrite E. cbn [w_files w_dirs w_time] in *.
      exists o, w', (S m). splits; auto; [cbn; lia| | |].
      + split.
        * cbn [firstn]. intros d' n' c' [Heq|Hin]; [|exact (Hh1 _ _ _ Hin)]. injection Heq as -> -> ->.
          destruct (Hh2 d' n') as [->|(c2 & k & Hk & _)].
          -- intros c2 Hin. apply Hn. apply firstn_In_weak in Hin. apply (in_map key) in Hin. exact Hin.
          -- apply write_file_same.
          -- exfalso. apply Hn. apply nth_error_In in Hk. apply (in_map key) in Hk. exact Hk.
        * cbn [firstn nth_error]. intros d' n' Hnot. destruct (Hh2 d' n') as [->|Hk].
          -- intros c2 Hin. apply (Hnot c2). now right.
          -- left. apply write_file_other. intros Heq. injection Heq as -> ->. apply (Hnot c). now left.
          -- right. exact Hk.
      + cbn [firstn]. intros d' n' c' [Heq|Hin]; [|exact (Hd2 _ _ _ Hin)]. injection Heq as -> -> ->.
        apply Hd1. unfold add_dir. now rewrite String.eqb_refl.
      + destruct Hc as [(-> & -> & Hw)|(-> & Hlt & t & Ht & Hf)]; [left|right]; splits; auto; cbn [List.length].
        * intros t Ht. destruct (Nat.eq_dec t (w_time w)) as [->|]; [exact F1|].
          destruct (Nat.eq_dec t (w_time w + 1)) as [->|]; [exact F2|]. apply Hw. lia.
        * lia.
        * exists t. split; [lia|exact Hf].
  Qed.
End Runs.

(** The names of the files of different test vectors are different. *)
Lemma vector_files_In : forall A (vector : A -> list (string * list byte)) inputs i d n c,
  In (d, n, c) (vector_files vector i inputs) <->
  i <= n /\ exists a, nth_error inputs (n - i) = Some a /\ In (d, c) (vector a).
Proof.
  intros A vector. induction inputs as [|a inputs IH]; intros i d n c; cbn [vector_files].
  - split; [contradiction|]. intros (_ & a & Ha & _). destruct (n - i); discriminate.
  - rewrite in_app_iff, in_map_iff, IH. split.
    + intros [([d' c'] & Heq & Hin)|(Hle & a' & Ha & Hin)].
      * injection Heq as -> <- ->. split; [lia|]. exists a. rewrite Nat.sub_diag. auto.
      * split; [lia|]. exists a'. replace (n - i) with (S (n - (i + 1))) by lia. auto.
    + intros (Hle & a' & Ha & Hin). destruct (Nat.eq_dec n i) as [->|Hne].
      * rewrite Nat.sub_diag in Ha. injection Ha as ->. left. exists (d, c). auto.
      * right. split; [lia|]. exists a'. replace (n - i) with (S (n - (i + 1))) in Ha by lia. auto.
Qed.

Lemma vector_files_nodup : forall A (vector : A -> list (string * list byte)), (forall a, NoDup (map fst (vector a))) ->
  forall inputs i, NoDup (map key (vector_files vector i inputs)).
Proof.
  intros A vector ND. induction inputs as [|a inputs IH]; intros i; cbn [vector_files map]; [constructor|].
  rewrite map_app. apply NoDup_app_intro.
  - rewrite map_map. specialize (ND a). induction (vector a) as [|[d c] l IHl]; cbn [map]; [constructor|].
    cbn [map fst] in ND. apply NoDup_cons_iff in ND as [Hn ND]. constructor; [|auto].
    rewrite in_map_iff. intros ([d' c'] & Heq & Hin). cbn in Heq. injection Heq as ->. apply Hn. apply (in_map fst) in Hin. exact Hin.
  - apply IH.
  - intros [d n]. rewrite !in_map_iff. intros ([[d1 n1] c1] & E1 & Hin1) ([[d2 n2] c2] & E2 & Hin2).
    cbn in E1, E2. injection E1 as -> ->. injection E2 as -> ->. rewrite in_map_iff in Hin1. destruct Hin1 as ([d3 c3] & E3 & _).
    injection E3 as -> <- ->. apply vector_files_In in Hin2. lia.
Qed.

(** A function that writes the test vector of its input. *)
Definition writes_vector_io {A} (vector : A -> list (string * list byte)) (arb : list byte -> option A) (faults : nat -> fault)
    (single : list byte -> nat -> io unit) : Prop :=
  forall data count w,
    single data count w =
      match arb data with
      | Some a => run_files faults (map (fun '(d, c) => (d, count, c)) (vector a)) w
      | None => (Panic, w)
      end.

Definition good_entry {A} (arb : list byte -> option A) (entry : option (list byte)) : bool :=
  match entry with Some data => match arb data with Some _ => true | None => false end | None => false end.

Lemma corpus_good_iff : forall A (arb : list byte -> option A) entries,
  corpus_good arb (Some entries) <-> forallb (good_entry arb) entries = true.
Proof.
  intros A arb entries. rewrite forallb_forall. split.
  - intros (entries' & E & H) x Hin. injection E as <-. destruct (H x Hin) as (data & a & -> & Ha). cbn. now rewrite Ha.
  - intros H. exists entries. split; [reflexivity|]. intros x Hin. specialize (H x Hin). destruct x as [data|]; [|discriminate].
    cbn in H. destruct (arb data) as [a|] eqn:Ea; [eauto|discriminate].
Qed.

Section Generate.
  Context {A : Type} (vector : A -> list (string * list byte)) (arb : list byte -> option A).

  Lemma generate_loop_eq : forall faults single, writes_vector_io vector arb faults single -> forall entries i w,
    generate_loop single entries i w =
      io_bind (run_files faults (vector_files vector i (usable arb entries)))
        (fun _ => io_lift (if forallb (good_entry arb) entries then Ret tt else Panic)) w.
  Proof.
    intros faults single HW. induction entries as [|entry entries IH]; intros i w; [reflexivity|].
    cbn [generate_loop usable forallb]. unfold io_bind at 1, io_lift at 1.
    destruct entry as [data|]; cbn [unwrap good_entry]; [|reflexivity]. unfold io_bind at 1. rewrite HW.
    destruct (arb data) as [a|]; [|reflexivity]. cbn [vector_files andb]. unfold io_bind at 1. rewrite run_files_app. unfold io_bind at 1.
    destruct (run_files faults _ w) as [[[]| |] w1]; [|reflexivity..]. rewrite IH. reflexivity.
  Qed.

  Context (generate : (nat -> fault) -> option (list (option (list byte))) -> io unit)
    (HG : forall faults, exists single, writes_vector_io vector arb faults single /\ generate faults = generate_io single)
    (ND : forall a, NoDup (map fst (vector a))).

  Lemma generate_stops_cleanly : stops_cleanly vector arb generate.
  Proof using HG ND.
    intros faults corpus w files. destruct (HG faults) as (single & HW & ->).
    destruct (@run_files_spec faults _ w (vector_files_nodup vector ND (usable_inputs arb corpus) 0)) as (o & w' & m & E & Hm & Hh & Hd1 & Hd2 & Hc).
    fold files in E, Hm, Hh, Hd2, Hc. destruct corpus as [entries|].
    - unfold generate_io, io_bind at 1, io_lift at 1. cbn [unwrap]. rewrite (generate_loop_eq HW). unfold io_bind, files in *.
      cbn [usable_inputs] in *. rewrite E. pose proof (corpus_good_iff arb entries) as HI.
      destruct Hc as [(-> & -> & Hw)|(-> & Hlt & Hf)].
      + destruct (forallb (good_entry arb) entries) eqn:F; unfold io_lift; do 2 eexists; exists (List.length (vector_files vector 0 (usable arb entries))); (split; [reflexivity|]); splits; auto.
        * left. splits; auto. now apply HI.
        * right. left. splits; auto. intros H. apply HI in H. discriminate.
      + exists Panic, w', m. splits; auto.
    - unfold generate_io, io_bind, io_lift. cbn [unwrap]. cbn [usable_inputs vector_files] in files. subst files.
      exists Panic, w, 0. splits; auto; try (cbn; contradiction).
      + split; [contradiction|]. auto.
      + right. left. splits; auto. intros (entries & H & _). discriminate.
  Qed.

  Lemma usable_all : forall entries inputs, map arb entries = map Some inputs -> usable arb (map Some entries) = inputs.
  Proof.
    induction entries as [|e entries IH]; intros [|a inputs] H; try discriminate; [reflexivity|]. injection H as Ha H.
    cbn [map usable]. rewrite Ha. now rewrite (IH _ H).
  Qed.
  Lemma usable_good : forall entries inputs, map arb entries = map Some inputs -> corpus_good arb (Some (map Some entries)).
  Proof.
    intros entries inputs H. exists (map Some entries). split; [reflexivity|]. intros entry Hin. apply in_map_iff in Hin as (data & <- & Hin).
    apply (in_map arb) in Hin. rewrite H in Hin. apply in_map_iff in Hin as (a & Ha & _). eauto.
  Qed.

  (** Two worlds that agree but for the files of the test vectors. *)
  Definition agree_outside (files : list (string * nat * list byte)) (f1 f2 : file_system) : Prop :=
    forall d n, (forall c, ~ In (d, n, c) files) -> f1 d n = f2 d n.

  Lemma holds_first_agree : forall files m before after, holds_first files m before after -> agree_outside files after before.
  Proof.
    intros files m before after [_ H] d n Hn. destruct (H d n) as [E|(c & k & Hk & _)]; [|exact E|].
    - intros c Hin. apply (Hn c). now apply firstn_In_weak in Hin.
    - apply nth_error_In in Hk. now apply Hn in Hk.
  Qed.

  Lemma attempts_agree : forall faultss corpus w,
    agree_outside (vector_files vector 0 (usable_inputs arb corpus))
      (w_files (attempts (fun faults => generate faults corpus) faultss w)) (w_files w).
  Proof using HG ND.
    induction faultss as [|faults faultss IH]; intros corpus w; [now intros d n _|]. cbn [attempts]. intros d n Hn.
    rewrite (IH _ _ d n Hn). destruct (generate_stops_cleanly faults corpus w) as (o & w' & m & E & _ & Hh & _).
    rewrite E. cbn [snd]. exact (holds_first_agree Hh d n Hn).
  Qed.

  Lemma in_dir_In : forall d c files, NoDup (map fst files) -> In (d, c) files -> in_dir d files = Some c.
  Proof.
    induction files as [|[d' c'] files IH]; intros HN Hin; [contradiction|]. cbn [map fst] in HN. apply NoDup_cons_iff in HN as [Hn HN].
    cbn [in_dir]. destruct Hin as [Heq|Hin]; [injection Heq as -> ->; now rewrite String.eqb_refl|].
    destruct (String.eqb_spec d' d) as [->|]; [|auto]. exfalso. apply Hn. apply (in_map fst) in Hin. exact Hin.
  Qed.
  Lemma in_dir_Some : forall d c files, in_dir d files = Some c -> In (d, c) files.
  Proof.
    induction files as [|[d' c'] files IH]; intros H; [discriminate|]. cbn [in_dir] in H.
    destruct (String.eqb_spec d' d) as [->|]; [injection H as ->; now left|right; auto].
  Qed.

  Lemma holds_all : forall inputs before middle after,
    holds_first (vector_files vector 0 inputs) (List.length (vector_files vector 0 inputs)) middle after ->
    agree_outside (vector_files vector 0 inputs) middle before -> holds_vectors vector inputs before after.
  Proof using ND.
    intros inputs before middle after [H1 H2] HA d n. rewrite firstn_all in H1, H2.
    assert (Hout : (forall c, ~ In (d, n, c) (vector_files vector 0 inputs)) -> after d n = before d n).
    { intros Hn. rewrite <- (HA d n Hn). destruct (H2 d n Hn) as [E|(c & k & Hk & _)]; [exact E|].
      apply nth_error_In in Hk. now apply Hn in Hk. }
    destruct (nth_error inputs n) as [a|] eqn:En; [destruct (in_dir d (vector a)) as [c|] eqn:Ed|].
    - apply H1. apply vector_files_In. split; [lia|]. exists a. rewrite Nat.sub_0_r. split; [exact En|]. now apply in_dir_Some.
    - apply Hout. intros c Hin. apply vector_files_In in Hin as (_ & a' & Ha & Hin). rewrite Nat.sub_0_r, En in Ha. injection Ha as <-.
      rewrite (in_dir_In _ _ _ (ND a) Hin) in Ed. discriminate.
    - apply Hout. intros c Hin. apply vector_files_In in Hin as (_ & a' & Ha & Hin). rewrite Nat.sub_0_r, En in Ha. discriminate.
  Qed.

  Lemma generate_restartable : restartable vector arb generate.
  Proof using HG ND.
    intros faultss entries inputs w H corpus.
    pose proof (attempts_agree faultss corpus w) as HA.
    destruct (generate_stops_cleanly (fun _ => Works) corpus (attempts (fun faults => generate faults corpus) faultss w))
      as (o & w' & m & E & Hm & Hh & _ & _ & Hc).
    unfold corpus in HA, Hh, Hm, Hc. cbn [usable_inputs] in HA, Hh, Hm, Hc. rewrite (usable_all _ _ H) in HA, Hh, Hm, Hc. fold corpus in HA, Hh, Hm, Hc.
    destruct Hc as [(-> & _ & -> & _)|[(_ & Hng & _)|(_ & _ & t & _ & Hf)]].
    - exists w'. split; [exact E|]. exact (@holds_all _ _ _ _ Hh HA).
    - exfalso. apply Hng. exact (usable_good _ _ H).
    - congruence.
  Qed.
End Generate.

Section Absolute.
  Context {V O : Type} (encode : encode_fn V) (decode : decode_fn V O) (enc : V -> list byte) (dec : list byte -> parse V O)
    (arb : list byte -> option (list byte)) (dbg_value : V -> list byte) (dbg_error : decode_error unit infallible O -> list byte).

  Lemma single_absolute_io_writes : (forall xs v n, dec xs = Parsed v n -> encode_into_vec encode v = Ret (enc v)) -> lawful_decode decode dec ->
    forall faults, writes_vector_io (vector_absolute enc dec dbg_value dbg_error) arb faults
      (single_absolute_io faults encode decode arb dbg_value dbg_error).
  Proof.
    intros HE LD faults data count w. unfold single_absolute_io, vector_absolute.
    destruct (arb data) as [bytes|]; [|reflexivity]. unfold io_bind at 1, io_lift at 1. cbn [unwrap]. rewrite (decode_from_slice_ok LD).
    unfold io_bind at 1, io_lift at 1.
    destruct (dec bytes) as [v n|o n|] eqn:Ed; cbn [parse_result slice_error map run_files].
    - unfold io_bind. destruct (put _ _ _ _ w) as [[[]| |] w1]; try reflexivity.
      destruct (put _ _ _ _ w1) as [[[]| |] w2]; try reflexivity. rewrite (HE _ _ _ Ed). unfold io_lift.
      destruct (put _ _ _ _ w2) as [[[]| |] w3]; reflexivity.
    - unfold io_bind. destruct (put _ _ _ _ w) as [[[]| |] w1]; try reflexivity.
      destruct (put _ _ _ _ w1) as [[[]| |] w2]; reflexivity.
    - unfold io_bind. destruct (put _ _ _ _ w) as [[[]| |] w1]; try reflexivity.
      destruct (put _ _ _ _ w1) as [[[]| |] w2]; reflexivity.
  Qed.

  Lemma single_canonic_io_writes : lawful_decode decode dec ->
    forall faults, writes_vector_io (vector_canonic dec dbg_value dbg_error) arb faults
      (single_canonic_absolute_io faults decode arb dbg_value dbg_error).
  Proof.
    intros LD faults data count w. unfold single_canonic_absolute_io, vector_canonic.
    destruct (arb data) as [bytes|]; [|reflexivity]. unfold io_bind at 1, io_lift at 1. cbn [unwrap]. rewrite (decode_from_slice_ok LD).
    unfold io_bind at 1, io_lift at 1.
    destruct (dec bytes) as [v n|o n|] eqn:Ed; cbn [parse_result slice_error map run_files];
      unfold io_bind; (destruct (put _ _ _ _ w) as [[[]| |] w1]; try reflexivity);
      destruct (put _ _ _ _ w1) as [[[]| |] w2]; reflexivity.
  Qed.
End Absolute.

Section Relative.
  Context {V RT O : Type} (encode : encode_fn V) (decode : RT -> decode_fn V O) (enc : V -> list byte) (dec : RT -> list byte -> parse V O)
    (arb : list byte -> option (list byte * RT)) (encode_r : RT -> outcome (list byte)) (enc_r : RT -> list byte)
    (dbg_pair : V -> RT -> list byte) (dbg_reference : RT -> list byte) (dbg_error : decode_error unit infallible O -> list byte).

  Lemma single_relative_io_writes : (forall r xs v n, dec r xs = Parsed v n -> encode_into_vec encode v = Ret (enc v)) ->
    (forall r, lawful_decode (decode r) (dec r)) -> (forall r, encode_r r = Ret (enc_r r)) ->
    forall faults, writes_vector_io (vector_relative enc dec enc_r dbg_pair dbg_reference dbg_error) arb faults
      (single_relative_io faults encode decode arb encode_r dbg_pair dbg_reference dbg_error).
  Proof.
    intros HE LD HR faults data count w. unfold single_relative_io, vector_relative, relative_decode_from_slice.
    destruct (arb data) as [[bytes r]|]; [|reflexivity]. unfold io_bind at 1, io_lift at 1. cbn [unwrap]. rewrite (decode_from_slice_ok (LD r)).
    unfold io_bind at 1, io_lift at 1.
    destruct (dec r bytes) as [v n|o n|] eqn:Ed; cbn [parse_result slice_error map run_files]; unfold io_bind;
      (destruct (put _ _ _ _ w) as [[[]| |] w1]; try reflexivity); rewrite HR; unfold io_lift;
      (destruct (put _ _ _ _ w1) as [[[]| |] w2]; try reflexivity);
      (destruct (put _ _ _ _ w2) as [[[]| |] w3]; try reflexivity); try rewrite (HE _ _ _ _ Ed);
      destruct (put _ _ _ _ w3) as [[[]| |] w4]; reflexivity.
  Qed.
End Relative.

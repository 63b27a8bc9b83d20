(** Proofs about the generation of test vectors. *)
From Coq Require Import Bool List Arith String Lia.
From Coq.Init Require Import Byte.
From Verif Require Import Prelude ListFacts Traits Contracts ContractFacts BasicModel CodecModel CodecSpec CodecProofs
  VectorModel VectorSpec.
Import ListNotations.
Set Implicit Arguments.
Local Open Scope string_scope.

(** Writing files one after the other. *)
Fixpoint write_files (count : nat) (files : list (string * list byte)) (fs : file_system) : file_system :=
  match files with
  | [] => fs
  | (d, contents) :: files => write_files count files (write_file d count contents fs)
  end.

Lemma write_files_other : forall files count fs d n, n <> count \/ in_dir d files = None -> write_files count files fs d n = fs d n.
Proof.
  induction files as [|[d' c] files IH]; intros count fs d n H; cbn [write_files]; [reflexivity|].
  assert (H' : n <> count \/ in_dir d files = None).
  { destruct H as [H|H]; [auto|]. cbn [in_dir] in H. destruct (d' =? d); [discriminate|auto]. }
  rewrite IH by exact H'. unfold write_file. destruct (Nat.eqb_spec n count) as [->|Hn]; [|now rewrite andb_false_r].
  destruct H as [H|H]; [congruence|]. cbn [in_dir] in H. destruct (String.eqb_spec d' d) as [->|Hd]; [discriminate|].
  destruct (String.eqb_spec d d'); [congruence|reflexivity].
Qed.

Lemma in_dir_None : forall d files, ~ In d (map fst files) -> in_dir d files = None.
Proof.
  induction files as [|[d' c] files IH]; intros H; cbn [in_dir]; auto. cbn in H. destruct (String.eqb_spec d' d); [tauto|]. apply IH. tauto.
Qed.

Lemma write_files_spec : forall files count fs d, NoDup (map fst files) ->
  write_files count files fs d count = match in_dir d files with Some c => Some c | None => fs d count end.
Proof.
  induction files as [|[d' c] files IH]; intros count fs d H; cbn [write_files in_dir]; [reflexivity|].
  cbn [map fst] in H. apply NoDup_cons_iff in H as [Hn Hd]. destruct (String.eqb_spec d' d) as [->|Hne].
  - rewrite write_files_other by (right; now apply in_dir_None). unfold write_file. now rewrite String.eqb_refl, Nat.eqb_refl.
  - rewrite IH by exact Hd. destruct (in_dir d files); [reflexivity|]. unfold write_file.
    destruct (String.eqb_spec d d'); [congruence|reflexivity].
Qed.

(** A function that writes the test vector of its input. *)
Definition writes_vector {A} (vector : A -> list (string * list byte)) (arb : list byte -> option A)
    (single : list byte -> nat -> file_system -> outcome file_system) : Prop :=
  forall data count fs,
    single data count fs =
      match arb data with
      | Some a => Ret (write_files count (vector a) fs)
      | None => Panic
      end.

Lemma generate_spec : forall A (vector : A -> list (string * list byte)) arb single, writes_vector vector arb single ->
  (forall a, NoDup (map fst (vector a))) ->
  forall corpus inputs i fs, map arb corpus = map Some inputs ->
  exists fs', generate_test_vectors single corpus i fs = Ret fs' /\
    forall dir n, fs' dir n =
      if Nat.ltb n i then fs dir n
      else match nth_error inputs (n - i) with
           | Some a => match in_dir dir (vector a) with Some contents => Some contents | None => fs dir n end
           | None => fs dir n
           end.
Proof.
  intros A vector arb single HW ND. induction corpus as [|data corpus IH]; intros inputs i fs H.
  - destruct inputs; [|discriminate]. exists fs. split; [reflexivity|]. intros dir n.
    destruct (Nat.ltb n i); [reflexivity|]. destruct (n - i); reflexivity.
  - destruct inputs as [|a inputs]; [discriminate|]. injection H as Ha H. cbn [generate_test_vectors].
    rewrite HW, Ha. cbn [bind]. destruct (IH inputs (i + 1) (write_files i (vector a) fs) H) as (fs' & E1 & Hf).
    exists fs'. split; [exact E1|]. intros dir n. rewrite Hf.
    destruct (Nat.ltb_spec n (i + 1)) as [H1|H1]; destruct (Nat.ltb_spec n i) as [H2|H2]; try lia.
    + apply write_files_other. left. lia.
    + assert (n = i) by lia. subst n. rewrite Nat.sub_diag. cbn [nth_error]. apply write_files_spec. apply ND.
    + replace (n - i) with (S (n - (i + 1))) by lia. cbn [nth_error]. rewrite write_files_other by (left; lia). reflexivity.
Qed.

Lemma generate_panics : forall A (vector : A -> list (string * list byte)) arb single, writes_vector vector arb single ->
  forall corpus i fs, (exists data, In data corpus /\ arb data = None) -> generate_test_vectors single corpus i fs = Panic.
Proof.
  intros A vector arb single HW. induction corpus as [|data corpus IH]; intros i fs (data' & Hin & Hn); [contradiction|].
  cbn [generate_test_vectors]. rewrite HW. destruct (arb data) as [a|] eqn:Ea; [|reflexivity]. cbn [bind].
  apply IH. destruct Hin as [<-|Hin]; [congruence|]. eauto.
Qed.

Lemma generate_holds : forall A (vector : A -> list (string * list byte)) arb single, writes_vector vector arb single ->
  (forall a, NoDup (map fst (vector a))) ->
  forall corpus inputs fs, map arb corpus = map Some inputs ->
  exists fs', generate_test_vectors single corpus 0 fs = Ret fs' /\ holds_vectors vector inputs fs fs'.
Proof.
  intros A vector arb single HW ND corpus inputs fs H. destruct (generate_spec HW ND corpus inputs 0 fs H) as (fs' & E1 & Hf).
  exists fs'. split; [exact E1|]. intros dir n. rewrite Hf. cbn [Nat.ltb Nat.leb]. rewrite Nat.sub_0_r. reflexivity.
Qed.

Ltac nodup :=
  repeat (apply NoDup_cons; [let Hin := fresh in intros Hin; repeat (destruct Hin as [Hin|Hin]; [discriminate Hin|]); exact Hin|]);
  apply NoDup_nil.

Section Absolute.
  Context {V O : Type} (encode : encode_fn V) (decode : decode_fn V O) (enc : V -> list byte) (dec : list byte -> parse V O)
    (arb : list byte -> option (list byte)) (dbg_value : V -> list byte) (dbg_error : decode_error unit infallible O -> list byte).

  Lemma vector_absolute_nodup : forall bytes, NoDup (map fst (vector_absolute enc dec dbg_value dbg_error bytes)).
  Proof. intros bytes. unfold vector_absolute. destruct (dec bytes); cbn [slice_error map fst]; nodup. Qed.
  Lemma vector_canonic_nodup : forall bytes, NoDup (map fst (vector_canonic dec dbg_value dbg_error bytes)).
  Proof. intros bytes. unfold vector_canonic. destruct (dec bytes); cbn [slice_error map fst]; nodup. Qed.

  Lemma single_absolute : (forall xs v n, dec xs = Parsed v n -> encode_into_vec encode v = Ret (enc v)) -> lawful_decode decode dec ->
    writes_vector (vector_absolute enc dec dbg_value dbg_error) arb
      (single_test_vector_absolute encode decode arb dbg_value dbg_error).
  Proof.
    intros HE LD data count fs. unfold single_test_vector_absolute, vector_absolute.
    destruct (arb data) as [bytes|]; [|reflexivity]. cbn [unwrap bind]. rewrite (decode_from_slice_ok LD). cbn [bind].
    destruct (dec bytes) as [v n|o n|] eqn:Ed; cbn [parse_result slice_error]; try reflexivity.
    rewrite (HE _ _ _ Ed). reflexivity.
  Qed.

  Lemma single_canonic : lawful_decode decode dec ->
    writes_vector (vector_canonic dec dbg_value dbg_error) arb
      (single_test_vector_canonic_absolute decode arb dbg_value dbg_error).
  Proof.
    intros LD data count fs. unfold single_test_vector_canonic_absolute, vector_canonic.
    destruct (arb data) as [bytes|]; [|reflexivity]. cbn [unwrap bind]. rewrite (decode_from_slice_ok LD). cbn [bind].
    destruct (dec bytes) as [v n|o n|] eqn:Ed; reflexivity.
  Qed.
End Absolute.

Section Relative.
  Context {V RT O : Type} (encode : encode_fn V) (decode : RT -> decode_fn V O) (enc : V -> list byte)
    (dec : RT -> list byte -> parse V O) (encode_r : RT -> outcome (list byte)) (enc_r : RT -> list byte)
    (arb : list byte -> option (list byte * RT)) (dbg_pair : V -> RT -> list byte) (dbg_reference : RT -> list byte)
    (dbg_error : decode_error unit infallible O -> list byte).

  Lemma vector_relative_nodup : forall data, NoDup (map fst (vector_relative enc dec enc_r dbg_pair dbg_reference dbg_error data)).
  Proof. intros [bytes r]. unfold vector_relative. destruct (dec r bytes); cbn [slice_error map fst]; nodup. Qed.

  Lemma single_relative : (forall r xs v n, dec r xs = Parsed v n -> encode_into_vec encode v = Ret (enc v)) ->
    (forall r, lawful_decode (decode r) (dec r)) -> (forall r, encode_r r = Ret (enc_r r)) ->
    writes_vector (vector_relative enc dec enc_r dbg_pair dbg_reference dbg_error) arb
      (single_test_vector_relative encode decode arb encode_r dbg_pair dbg_reference dbg_error).
  Proof.
    intros HE LD HR data count fs. unfold single_test_vector_relative, vector_relative, relative_decode_from_slice.
    destruct (arb data) as [[bytes r]|]; [|reflexivity]. cbn [unwrap bind]. rewrite (decode_from_slice_ok (LD r)). cbn [bind].
    destruct (dec r bytes) as [v n|o n|] eqn:Ed; cbn [parse_result slice_error]; rewrite HR; cbn [bind]; try reflexivity.
    rewrite (HE _ _ _ _ Ed). reflexivity.
  Qed.
End Relative.

(** What the output directory may hold when the generation of test vectors was interrupted. *)
From Coq Require Import Bool List Arith String.
From Coq.Init Require Import Byte.
From Verif Require Import Prelude Traits CodecModel CodecSpec VectorModel VectorSpec VectorIoModel.
Import ListNotations.
Set Implicit Arguments.
Local Open Scope string_scope.

(** The files of the test vectors of some inputs, in order; the first one has number [i]. *)
Fixpoint vector_files {A} (vector : A -> list (string * list byte)) (i : nat) (inputs : list A)
  : list (string * nat * list byte) :=
  match inputs with
  | [] => []
  | a :: inputs => map (fun '(d, c) => (d, i, c)) (vector a) ++ vector_files vector (i + 1) inputs
  end.

(** The inputs up to the first file of the corpus that cannot be read, or that does not stand for any data. *)
Fixpoint usable {A} (arb : list byte -> option A) (entries : list (option (list byte))) : list A :=
  match entries with
  | Some data :: entries => match arb data with Some a => a :: usable arb entries | None => [] end
  | _ => []
  end.
Definition usable_inputs {A} (arb : list byte -> option A) (corpus : option (list (option (list byte)))) : list A :=
  match corpus with Some entries => usable arb entries | None => [] end.
(** All of the corpus can be used. *)
Definition corpus_good {A} (arb : list byte -> option A) (corpus : option (list (option (list byte)))) : Prop :=
  exists entries, corpus = Some entries /\ forall entry, In entry entries -> exists data a, entry = Some data /\ arb data = Some a.

(** The first [m] of the files are there; the next one may have been cut off; nothing else has changed. *)
Definition holds_first (files : list (string * nat * list byte)) (m : nat) (before after : file_system) : Prop :=
  (forall d n c, In (d, n, c) (firstn m files) -> after d n = Some c) /\
  (forall d n, (forall c, ~ In (d, n, c) (firstn m files)) ->
     after d n = before d n \/ exists c k, nth_error files m = Some (d, n, c) /\ after d n = Some (firstn k c)).

(** A function that generates test vectors, for every way in which file operations can fail and every corpus: it returns, with all test
    vectors complete, if the corpus is good and the two operations for each file work; otherwise it panics, with the files
    up to that point complete. No directory is missing, none has disappeared. *)
Definition stops_cleanly {A} (vector : A -> list (string * list byte)) (arb : list byte -> option A)
    (generate : (nat -> fault) -> option (list (option (list byte))) -> io unit) : Prop :=
  forall faults corpus w,
  let files := vector_files vector 0 (usable_inputs arb corpus) in
  exists o w' m, generate faults corpus w = (o, w') /\ m <= List.length files /\
    holds_first files m (w_files w) (w_files w') /\
    (forall d, w_dirs w d = true -> w_dirs w' d = true) /\
    (forall d n c, In (d, n, c) (firstn m files) -> w_dirs w' d = true) /\
    ((o = Ret tt /\ corpus_good arb corpus /\ m = List.length files /\
      (forall t, w_time w <= t < w_time w + 2 * List.length files -> faults t = Works)) \/
     (o = Panic /\ ~ corpus_good arb corpus /\ m = List.length files) \/
     (o = Panic /\ m < List.length files /\
      exists t, w_time w + 2 * m <= t < w_time w + 2 * m + 2 /\ faults t <> Works)).

(** Trying again after any number of failed attempts leads to the same files as a single attempt without failures. *)
Fixpoint attempts (generate : (nat -> fault) -> io unit) (faultss : list (nat -> fault)) (w : world) : world :=
  match faultss with
  | [] => w
  | faults :: faultss => attempts generate faultss (snd (generate faults w))
  end.
Definition restartable {A} (vector : A -> list (string * list byte)) (arb : list byte -> option A)
    (generate : (nat -> fault) -> option (list (option (list byte))) -> io unit) : Prop :=
  forall faultss entries inputs w, map arb entries = map Some inputs ->
  let corpus := Some (map Some entries) in
  exists w', generate (fun _ => Works) corpus (attempts (fun faults => generate faults corpus) faultss w) = (Ret tt, w') /\
    holds_vectors vector inputs (w_files w) (w_files w').

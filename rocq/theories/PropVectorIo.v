(** Property C99: generation of test vectors when file operations fail. *)
From Coq Require Import Bool List Arith String Lia.
From Coq.Init Require Import Byte.
From Verif Require Import Prelude ListFacts Traits Contracts ContractFacts BasicModel CodecModel CodecSpec CodecProofs CodecExamples
  CodecFuzzSpec CodecFuzzProofs
  VectorModel VectorSpec VectorProofs VectorIoModel VectorIoSpec VectorIoProofs PropVectors.
Import ListNotations.
Local Open Scope string_scope.

(** *** C99. Whichever file operations fail, and whatever cannot be read of the corpus. *)

Theorem C99_absolute :
  forall V O (encode : encode_fn V) (decode : decode_fn V O) enc dec arb dbg_value dbg_error,
  (forall xs v n, dec xs = Parsed v n -> encodes_as encode v (enc v)) -> lawful_decode decode dec ->
  let generate faults := generate_absolute_io faults encode decode arb dbg_value dbg_error in
  stops_cleanly (vector_absolute enc dec dbg_value dbg_error) arb generate /\
  restartable (vector_absolute enc dec dbg_value dbg_error) arb generate.
Proof.
  intros V O encode decode enc dec arb dbg_value dbg_error HE LD generate.
  assert (HG : forall faults, exists single, writes_vector_io (vector_absolute enc dec dbg_value dbg_error) arb faults single /\
    generate faults = generate_io single).
  { intros faults. eexists. split; [|reflexivity]. apply single_absolute_io_writes; [|exact LD].
    intros xs v n Hv. exact (encodes_into_vec (HE xs v n Hv)). }
  split; [apply generate_stops_cleanly|apply generate_restartable]; auto; apply vector_absolute_nodup.
Qed.
Print Assumptions C99_absolute.

Theorem C99_canonic :
  forall V OC (decode_canonic : decode_fn V OC) decc arb dbg_value dbg_error, lawful_decode decode_canonic decc ->
  let generate faults := generate_canonic_absolute_io faults decode_canonic arb dbg_value dbg_error in
  stops_cleanly (vector_canonic decc dbg_value dbg_error) arb generate /\
  restartable (vector_canonic decc dbg_value dbg_error) arb generate.
Proof.
  intros V OC decode_canonic decc arb dbg_value dbg_error LC generate.
  assert (HG : forall faults, exists single, writes_vector_io (vector_canonic decc dbg_value dbg_error) arb faults single /\
    generate faults = generate_io single).
  { intros faults. eexists. split; [|reflexivity]. apply single_canonic_io_writes. exact LC. }
  split; [apply generate_stops_cleanly|apply generate_restartable]; auto; apply vector_canonic_nodup.
Qed.
Print Assumptions C99_canonic.

Theorem C99_relative :
  forall V RT O (encode : encode_fn V) (decode : RT -> decode_fn V O) enc dec encode_r enc_r arb dbg_pair dbg_reference dbg_error,
  (forall r xs v n, dec r xs = Parsed v n -> encodes_as encode v (enc v)) -> (forall r, lawful_decode (decode r) (dec r)) ->
  (forall r, encode_r r = Ret (enc_r r)) ->
  let generate faults := generate_relative_io faults encode decode arb encode_r dbg_pair dbg_reference dbg_error in
  stops_cleanly (vector_relative enc dec enc_r dbg_pair dbg_reference dbg_error) arb generate /\
  restartable (vector_relative enc dec enc_r dbg_pair dbg_reference dbg_error) arb generate.
Proof.
  intros V RT O encode decode enc dec encode_r enc_r arb dbg_pair dbg_reference dbg_error HE LD HR generate.
  assert (HG : forall faults, exists single,
    writes_vector_io (vector_relative enc dec enc_r dbg_pair dbg_reference dbg_error) arb faults single /\ generate faults = generate_io single).
  { intros faults. eexists. split; [|reflexivity]. apply single_relative_io_writes; [|exact LD|exact HR].
    intros r xs v n Hv. exact (encodes_into_vec (HE r xs v n Hv)). }
  split; [apply generate_stops_cleanly|apply generate_restartable]; auto; apply vector_relative_nodup.
Qed.
Print Assumptions C99_relative.

(** The function returns if and only if the corpus is good and all the operations work. *)
Theorem C99_returns_iff :
  forall V O (encode : encode_fn V) (decode : decode_fn V O) enc dec arb dbg_value dbg_error,
  (forall xs v n, dec xs = Parsed v n -> encodes_as encode v (enc v)) -> lawful_decode decode dec ->
  forall faults corpus w,
  fst (generate_absolute_io faults encode decode arb dbg_value dbg_error corpus w) = Ret tt <->
  corpus_good arb corpus /\
  forall t, w_time w <= t <
    w_time w + 2 * List.length (vector_files (vector_absolute enc dec dbg_value dbg_error) 0 (usable_inputs arb corpus)) ->
  faults t = Works.
Proof.
  intros V O encode decode enc dec arb dbg_value dbg_error HE LD faults corpus w.
  destruct (C99_absolute V O encode decode enc dec arb dbg_value dbg_error HE LD) as [HS _].
  destruct (HS faults corpus w) as (o & w' & m & E & Hm & _ & _ & _ & Hc). rewrite E. cbn [fst].
  destruct Hc as [(-> & Hg & -> & Hw)|[(-> & Hng & _)|(-> & Hlt & t & Ht & Hf)]].
  - split; auto.
  - split; [discriminate|]. intros [Hg _]. contradiction.
  - split; [discriminate|]. intros [_ Hw]. exfalso. apply Hf. apply Hw. lia.
Qed.
Print Assumptions C99_returns_iff.

(** Four files, in a directory that does not exist yet; the ninth operation creates the directory [nay_reason], the tenth one writes the
    reason why the second file does not decode, of which a byte is lost. The third file is not looked at. *)
Definition nothing_there : world := mkworld (fun _ => false) no_files 0.
Definition tenth_fails (t : nat) : fault := if Nat.eqb t 9 then FailsAfter 0 else Works.
Definition good_corpus : option (list (option (list byte))) := Some (map Some four_files).
Definition generate4 (faults : nat -> fault) : io unit := generate_absolute_io faults opt_encode opt_decode drop_first opt_dbg opt_dbg_error good_corpus.
Example C99_example :
  let '(o, w) := generate4 tenth_fails nothing_there in
  o = Panic /\ w_time w = 10 /\
  w_files w "yay" 0 = Some [x01; x05; x09] /\ w_files w "dbg" 0 = Some [xbb; x05] /\ w_files w "reencoded" 0 = Some [x01; x05] /\
  w_files w "nay" 1 = Some [x01] /\ w_files w "nay_reason" 1 = Some [] /\ w_files w "nay" 2 = None /\
  w_dirs w "nay_reason" = true /\ w_dirs w "nay_dbg" = false /\
  (let '(o, w') := generate4 (fun _ => Works) w in
   o = Ret tt /\ w_files w' "nay_reason" 1 = Some [xef] /\ w_files w' "nay" 2 = Some [x07; x00] /\ w_files w' "yay" 3 = Some [x00]).
Proof. vm_compute. repeat split. Qed.

(** A corpus with a file that cannot be read, and no corpus at all. *)
Example C99_example_unreadable :
  (let '(o, w) := generate_absolute_io (fun _ => Works) opt_encode opt_decode drop_first opt_dbg opt_dbg_error
     (Some [Some [x00; x00]; None; Some [x00; x00]]) nothing_there in
   o = Panic /\ w_files w "reencoded" 0 = Some [x00] /\ w_files w "yay" 1 = None /\ w_files w "yay" 2 = None) /\
  generate_absolute_io (fun _ => Works) opt_encode opt_decode drop_first opt_dbg opt_dbg_error None nothing_there = (Panic, nothing_there).
Proof. vm_compute. repeat split. Qed.

(** So not every number in the output directory stands for a complete test vector, and not every file is complete. *)
Theorem C99_complete_vectors_refuted :
  exists V O (encode : encode_fn V) (decode : decode_fn V O) enc dec arb dbg_value dbg_error faults1 faults2 corpus w1 w2 v,
  lawful_codec encode decode enc dec /\ corpus_good arb corpus /\
  generate_absolute_io faults1 encode decode arb dbg_value dbg_error corpus nothing_there = (Panic, w1) /\
  w_files w1 "yay" 0 <> None /\ w_files w1 "dbg" 0 = None /\
  generate_absolute_io faults2 encode decode arb dbg_value dbg_error corpus nothing_there = (Panic, w2) /\
  w_files w2 "yay" 0 = Some (enc v ++ [x09])%list /\ w_files w2 "dbg" 0 <> None /\ w_files w2 "dbg" 0 <> Some (dbg_value v).
Proof.
  exists (option byte), byte, opt_encode, opt_decode, opt_enc, opt_dec, drop_first, opt_dbg, opt_dbg_error,
    (fun t => if Nat.eqb t 3 then Fails else Works), (fun t => if Nat.eqb t 3 then FailsAfter 1 else Works), good_corpus.
  do 2 eexists. exists (Some x05). split; [exact opt_codec|]. split.
  { eexists. split; [reflexivity|]. intros entry Hin. cbn in Hin.
    repeat (destruct Hin as [<-|Hin]; [do 2 eexists; split; reflexivity|]). contradiction. }
  split; [vm_compute; reflexivity|]. split; [vm_compute; discriminate|]. split; [reflexivity|].
  split; [vm_compute; reflexivity|]. split; [reflexivity|]. split; vm_compute; discriminate.
Qed.
Print Assumptions C99_complete_vectors_refuted.

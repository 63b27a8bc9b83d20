(** C104: derived comparisons and hashes. *)
From Coq Require Import Bool List Arith ZArith Lia.
From Coq.Init Require Import Byte.
From Verif Require Import Prelude Traits BasicModel AdaptorModel ScramblerModel IoModel CodecModel EndianModel EndianProofs ErrorModel
  EqualityModel EqualitySpec OrderModel OrderSpec OrderProofs.
Import ListNotations.

(** *** The laws of the traits. *)
Theorem C104_partial_orders : everywhere (@lawful_partial).
Proof. exact partial_everywhere. Qed.
Print Assumptions C104_partial_orders.

Theorem C104_total_orders : everywhere (@lawful_total).
Proof. exact total_everywhere. Qed.
Print Assumptions C104_total_orders.

(** Nothing but the same value is equal. *)
Theorem C104_faithful : everywhere (@faithful).
Proof. exact faithful_everywhere. Qed.
Print Assumptions C104_faithful.

(** Hashes agree with equality, and the sequence of things fed to the hasher tells values apart. *)
Theorem C104_hash : everywhere (@hash_agrees) /\ everywhere (@hash_tells).
Proof. split; [exact agrees_everywhere|exact tells_everywhere]. Qed.
Print Assumptions C104_hash.

(** The types of which everything above can be made. *)
Theorem C104_parts :
  (lawful_total compared_usize /\ faithful compared_usize /\ hash_tells compared_usize) /\
  (lawful_total compared_bool /\ faithful compared_bool /\ hash_tells compared_bool) /\
  (forall i, lawful_total (compared_int i) /\ faithful (compared_int i) /\ hash_tells (compared_int i)) /\
  (forall T (O : compared T),
     (lawful_total O -> lawful_total (compared_slice O)) /\ (faithful O -> faithful (compared_slice O)) /\
     (hash_tells O -> hash_tells (compared_slice O))) /\
  (forall T (O : compared T),
     (lawful_total O -> lawful_total (compared_option O)) /\ (faithful O -> faithful (compared_option O)) /\
     (hash_tells O -> hash_tells (compared_option O))).
Proof.
  split; [exact (conj usize_total (conj usize_faithful usize_tells))|]. split; [exact (conj bool_total (conj bool_faithful bool_tells))|].
  split; [exact (fun i => conj (int_total i) (conj (@int_faithful i) (@int_tells i)))|].
  split; intros T O; [exact (conj (@slice_total _ O) (conj (@slice_faithful _ O) (@slice_tells _ O)))|
                      exact (conj (@option_total _ O) (conj (@option_faithful _ O) (@option_tells _ O)))].
Qed.
Print Assumptions C104_parts.

(** Without a length in front of it, what follows a slice could be taken for a part of it. *)
Example C104_hash_example :
  c_hash compared_yielder (mk_yielder [true; false] 7) = [FeedSize 2; FeedInt u8 1; FeedInt u8 0; FeedSize 7] /\
  c_hash (compared_limit compared_yielder) (mk_limit (mk_yielder [true] 0) 3) = [FeedSize 1; FeedInt u8 1; FeedSize 0; FeedSize 3] /\
  c_hash compared_blame TheirFault = [FeedVariant 0] /\ c_hash compared_blame OurFault = [FeedVariant 1] /\
  c_hash (compared_with_fun compared_usize compared_usize) (mk_with_fun 4 None) = [FeedSize 4; FeedVariant 0] /\
  c_hash (compared_with_fun compared_usize compared_usize) (mk_with_fun 4 (Some 5)) = [FeedSize 4; FeedVariant 1; FeedSize 5].
Proof. repeat split. Qed.

(** Numbers of which some are not: equal to nothing, not even to themselves. *)
Definition compared_float : compared (option nat) :=
  mk_compared (fun x y => match x, y with Some a, Some b => Nat.eqb a b | _, _ => false end)
    (fun x y => match x, y with Some a, Some b => Some (Nat.compare a b) | _, _ => None end) (fun _ _ => Eq) (fun _ => []).
Example C104_partial_orders_example :
  lawful_partial (compared_limit compared_float) /\ ~ lawful_total (compared_limit compared_float) /\
  c_partial_cmp (compared_limit compared_float) (mk_limit (Some 3) 9) (mk_limit (Some 3) 10) = Some Lt /\
  c_partial_cmp (compared_limit compared_float) (mk_limit None 9) (mk_limit None 9) = None.
Proof.
  split; [|split; [|split; reflexivity]].
  - apply C104_partial_orders. pose proof (proj1 usize_total) as L. constructor; cbn.
    + intros [x|] [y|]; try discriminate. apply (lo_sym L).
    + intros [x|] [y|] [z|]; try discriminate. apply (lo_trans L).
    + intros [x|] [y|]; try (split; discriminate). apply (lo_agree L).
    + intros [x|] [y|]; try reflexivity. apply (lo_dual L).
    + intros [x|] [y|] [z|]; try discriminate. apply (lo_less L).
    + intros [x|] [y|] [z|]; try discriminate; try reflexivity. apply (lo_cong L).
  - intros (_ & H & _). discriminate (H (mk_limit None 9)).
Qed.

(** *** The order, by fields. *)
Theorem C104_order :
  (forall S (O : compared S) x y,
     c_cmp (compared_limit O) x y = Lt <->
     c_cmp O (lim_inner x) (lim_inner y) = Lt \/ c_cmp O (lim_inner x) (lim_inner y) = Eq /\ lim_remaining x < lim_remaining y) /\
  (forall S W (O : compared S) (OW : compared W) x y,
     c_cmp (compared_map_item O OW) x y = Lt <->
     c_cmp O (mi_inner x) (mi_inner y) = Lt \/
     c_cmp O (mi_inner x) (mi_inner y) = Eq /\ c_cmp OW (mi_closure x) (mi_closure y) = Lt) /\
  (forall S G (O : compared S) (OG : compared G) x y,
     c_cmp (compared_with_fun O OG) x y = Lt <->
     c_cmp O (wf_inner x) (wf_inner y) = Lt \/
     c_cmp O (wf_inner x) (wf_inner y) = Eq /\
     exists g, wf_fun y = Some g /\ (wf_fun x = None \/ exists f, wf_fun x = Some f /\ c_cmp OG f g = Lt)) /\
  (forall S (O : compared S) x y,
     c_cmp (compared_invariant O) x y = Lt <->
     c_cmp O (inv_inner x) (inv_inner y) = Lt \/
     c_cmp O (inv_inner x) (inv_inner y) = Eq /\
     (inv_active x = false /\ inv_active y = true \/ inv_active x = inv_active y /\ inv_exposed x < inv_exposed y)) /\
  (forall S (O : compared S) x y, c_cmp (compared_invariant_noop O) x y = c_cmp O (inv_inner x) (inv_inner y)) /\
  (forall S (O : compared S) x y, c_cmp (compared_buf_reader O) x y = c_cmp O x y) /\
  (forall x y, c_cmp compared_blame x y = Lt <-> x = TheirFault /\ y = OurFault) /\
  (forall w a b, c_cmp (compared_endian w) a b = Lt <-> (num_val a < num_val b)%Z) /\
  (forall x y, c_cmp compared_yielder x y = Lt <->
     pattern_before (y_pattern x) (y_pattern y) \/ y_pattern x = y_pattern y /\ y_index x < y_index y).
Proof. exact orders. Qed.
Print Assumptions C104_order.

Example C104_order_example :
  c_cmp (compared_limit compared_usize) (mk_limit 3 9) (mk_limit 4 0) = Lt /\
  c_cmp (compared_limit compared_usize) (mk_limit 4 9) (mk_limit 4 0) = Gt /\
  c_cmp (compared_with_fun compared_usize compared_usize) (mk_with_fun 4 None) (mk_with_fun 4 (Some 0)) = Lt /\
  c_cmp compared_yielder (mk_yielder [true] 9) (mk_yielder [true; false] 0) = Lt /\
  c_cmp compared_yielder (mk_yielder [false; true] 9) (mk_yielder [true] 0) = Lt /\
  pattern_before [false; true] [true] /\ pattern_before [true] [true; false].
Proof.
  repeat (split; [reflexivity|]). split; [right; exists [], [true], []; auto|left; exists false, []; reflexivity].
Qed.

(** *** Types with [PartialEq] and [Eq] only. *)
Theorem C104_equalities :
  (forall A B ea eb, decides ea -> decides eb -> decides (@pipe_error_eq A B ea eb)) /\
  (forall E ee, decides ee -> decides (@cale_eq E ee)) /\
  (forall F E ef ee, decides ef -> decides ee -> decides (@pale_eq F E ef ee)) /\
  (forall F E O ef ee eo, decides ef -> decides ee -> decides eo -> decides (@decode_error_eq F E O ef ee eo)) /\
  decides pscr_op_eq /\ decides cscr_op_eq.
Proof. exact equalities. Qed.
Print Assumptions C104_equalities.

Example C104_equalities_example :
  decides Nat.eqb /\
  pipe_error_eq Nat.eqb Nat.eqb (PipeProducer 4) (PipeConsumer 4) = false /\
  pale_eq Nat.eqb Nat.eqb (mk_pale 2 (inl 4)) (mk_pale 2 (inr 4)) = false /\
  decode_error_eq Nat.eqb Nat.eqb Nat.eqb (UnexpectedEndOfInput 4) (Other 4) = false /\
  pscr_op_eq (ScConsiderProduced 4) (ScConsiderProduced 5) = false.
Proof. split; [intros x y; apply Nat.eqb_eq|]. repeat split. Qed.

(** *** Numbers and their encodings: wrappers are equal just if their encodings are; which encodings are sorted like the wrappers. *)
Theorem C104_encodings :
  (forall w a b, c_eq (compared_endian w) a b = true <-> to_bytes w a = to_bytes w b) /\
  (forall w, (forall a b, c_cmp (compared_endian w) a b = Lt <-> below (to_bytes w a) (to_bytes w b)) <-> In w sorted_encodings).
Proof. exact encodings. Qed.
Print Assumptions C104_encodings.

Example C104_encodings_example :
  let a := num_of u16 1 in let b := num_of u16 256 in
  c_cmp (compared_endian U16BE) a b = Lt /\ to_bytes U16BE a = [x00; x01] /\ to_bytes U16BE b = [x01; x00] /\
  c_cmp (compared_endian U16LE) a b = Lt /\ to_bytes U16LE a = [x01; x00] /\ to_bytes U16LE b = [x00; x01].
Proof. repeat split. Qed.

(** *** Test builds and others: what is equal in test builds is equal in others, and what comes first in others comes first in test builds. *)
Theorem C104_builds :
  forall S (O : compared S) x y,
  (c_eq (compared_invariant O) x y = true -> c_eq (compared_invariant_noop O) x y = true) /\
  (c_cmp (compared_invariant_noop O) x y = Lt -> c_cmp (compared_invariant O) x y = Lt) /\
  (inv_active x = inv_active y -> inv_exposed x = inv_exposed y ->
   c_eq (compared_invariant O) x y = c_eq (compared_invariant_noop O) x y /\
   c_partial_cmp (compared_invariant O) x y = c_partial_cmp (compared_invariant_noop O) x y /\
   c_cmp (compared_invariant O) x y = c_cmp (compared_invariant_noop O) x y).
Proof. exact builds. Qed.
Print Assumptions C104_builds.

(** The wrapper "does nothing at all" otherwise, but looking at items makes a difference in test builds only. A slice as a buffered reader: *)
Definition slice_read (buf s : list nat) : outcome (list nat * (list nat * res nat io_error)) :=
  let n := Nat.min (length buf) (length s) in Ret (skipn n s, (firstn n s ++ skipn n buf, Ok n)).
Definition slice_reader : buf_reader (list nat) nat :=
  mk_buf_reader (mk_reader slice_read) (fun s => Ret (s, Ok s)) (fun n s => Ret (skipn n s)).

Theorem C104_builds_refuted :
  exists x y : invariant (list nat),
  x = invariant_new [1; 2] /\
  p_expose (invariant_producer (buf_reader_producer slice_reader 0)) x = Ret (y, Ok (inl [1; 2])) /\
  c_eq (compared_invariant_noop (compared_slice compared_usize)) x y = true /\
  c_eq (compared_invariant (compared_slice compared_usize)) x y = false.
Proof. exists (invariant_new [1; 2]), (mk_invariant [1; 2] true 2). repeat split. Qed.
Print Assumptions C104_builds_refuted.

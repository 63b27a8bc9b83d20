(** Property C71: [IntoSlice]. [filling_machine n] collects up to [n] items and refuses further ones. *)
From Coq Require Import Bool List Arith Lia.
From Verif Require Import Prelude ListFacts Traits Contracts ContractFacts BasicModel BasicSpec BasicProofs PipeSpec PipeProofs
  AdaptorModel SliceModel SliceSpec SliceProofs.
Import ListNotations.

(** Every sequence of calls on a consumer into the slice [l]. *)
Theorem C71_into_slice_conforms :
  forall (T : Type) (l : list T) (ops : list (cop T unit)),
  c_conforms into_slice_consumer (filling_machine T unit (length l)) ops (into_slice_new l) (CActive [] 0 []).
Proof.
  intros T l ops. exact (lawful_c_conforms ops (s := into_slice_new l) (a := CActive [] 0 []) (into_slice_lawful (length l)) (is_rel_new l)).
Qed.
Print Assumptions C71_into_slice_conforms.

(** What the slice and the accessors show after any history of permitted calls: the items consumed successfully come first. What
    follows is what was there before, unless the caller wrote into slots without consuming them. *)
Theorem C71_into_slice_contents :
  forall (T : Type) (l : list T) h s' a',
  c_history into_slice_consumer (filling_machine T unit (length l)) (into_slice_new l) (CActive [] 0 []) h s' a' ->
  into_slice_get_offset s' = length (c_consumed [] h) /\
  into_slice_get_overwritten_so_far s' = Ret (c_consumed [] h) /\
  (exists rest, into_slice_get_not_yet_overwritten s' = Ret rest /\
     into_slice_as_ref s' = c_consumed [] h ++ rest /\ into_slice_into_inner s' = c_consumed [] h ++ rest /\
     length (c_consumed [] h ++ rest) = length l /\
     (no_writes h -> rest = skipn (length (c_consumed [] h)) l)).
Proof.
  intros T l h s' a' H. pose proof (filling_history (is_rel_new l) H) as HR. cbn [app] in HR.
  destruct (is_rel_read HR) as (R1 & R2 & R3 & rest & R4 & R5). split; [exact R2|]. split; [exact R3|]. exists rest.
  split; [exact R4|]. split; [exact R5|]. split; [exact R5|]. split; [now rewrite <- R5|].
  intros HN. pose proof (untouched_history (untouched_new l) HN H) as HU. rewrite (untouched_read HU HR) in R5.
  exact (eq_sym (app_inv_head _ _ _ R5)).
Qed.
Print Assumptions C71_into_slice_contents.

(** Piping a sequence into a slice: it fits iff it is no longer than the slice, and then the slice starts with it. Otherwise
    the slice is filled, and the consumer reports the error. The rest of the slice is unchanged. *)
Theorem C71_pipe_into_slice :
  forall (S T E : Type) (P : bulk_producer S T unit E) R D, lawful_producer P R D ->
  forall fuel s xs last k (l : list T), R s xs last k -> length xs < fuel ->
  let r := if length xs <=? length l then match last with Ok _ => Ok tt | Err e => Err (PipeProducer e) end
           else Err (PipeConsumer tt) in
  (exists s' c, pipe fuel P into_slice_consumer s (into_slice_new l) = Ret (s', c, r) /\
     into_slice_as_ref c = firstn (length l) xs ++ skipn (length xs) l /\
     into_slice_get_offset c = Nat.min (length xs) (length l)) /\
  (exists s' c, bulk_pipe fuel P into_slice_consumer s (into_slice_new l) = Ret (s', c, r) /\
     into_slice_as_ref c = firstn (length l) xs ++ skipn (length xs) l /\
     into_slice_get_offset c = Nat.min (length xs) (length l)).
Proof. intros S T E P R D L. exact (@into_slice_pipes T S E P R D L). Qed.
Print Assumptions C71_pipe_into_slice.

(** It accepts what it exposes: errors of [bulk_consume] refer to the first item offered. *)
Theorem C71_into_slice_clean :
  forall (T : Type) (l : list T), exists R D,
  lawful_consumer into_slice_consumer (filling_machine T unit (length l)) R D /\
  R (into_slice_new l) [] 0 [] /\ clean_bulk into_slice_consumer (filling_machine T unit (length l)) R.
Proof.
  intros T l. exists (is_rel (length l)), (is_end (length l)). split; [apply into_slice_lawful|].
  split; [apply is_rel_new|]. exact (@into_slice_clean T (length l)).
Qed.
Print Assumptions C71_into_slice_clean.

(** Two of the four slots are written, one of them is consumed; the other one keeps what was written. *)
Example C71_example :
  (exists s' a', c_history into_slice_consumer (filling_machine nat unit 5) (into_slice_new [0; 0; 0; 0; 0]) (CActive [] 0 [])
     [(CConsume 7, CAUnit (Ok tt)); (CExpose, CASlots (Ok 4)); (CWrite [8; 9], CANone); (CConsumeSlots 1, CAUnit (Ok tt))] s' a' /\
     into_slice_as_ref s' = [7; 8; 9; 0; 0] /\ into_slice_get_overwritten_so_far s' = Ret [7; 8] /\
     into_slice_get_not_yet_overwritten s' = Ret [9; 0; 0]) /\
  (exists s' a', c_history into_slice_consumer (filling_machine nat unit 2) (into_slice_new [0; 0]) (CActive [] 0 [])
     [(CBulkConsume [1; 2; 3], CANat (Ok 2)); (CFlush, CAUnit (Ok tt)); (CConsume 3, CAUnit (Err tt))] s' a' /\
     into_slice_as_ref s' = [1; 2]) /\
  (exists s' c, bulk_pipe 4 from_slice_producer into_slice_consumer (from_slice_new [1; 2; 3]) (into_slice_new [0; 0; 0; 0])
     = Ret (s', c, Ok tt) /\ into_slice_as_ref c = [1; 2; 3; 0]) /\
  (exists s' c, bulk_pipe 4 from_slice_producer into_slice_consumer (from_slice_new [1; 2; 3]) (into_slice_new [0; 0])
     = Ret (s', c, Err (PipeConsumer tt)) /\ into_slice_as_ref c = [1; 2]).
Proof.
  split; [|split; [|split]].
  - do 2 eexists. split; [run_c|]. vm_compute. auto.
  - do 2 eexists. split; [run_c|]. vm_compute. auto.
  - do 2 eexists. vm_compute. split; reflexivity.
  - do 2 eexists. vm_compute. split; reflexivity.
Qed.

(** The tests that are commented out in the source (into_slice.rs 128-221) describe what the invariant checker around [IntoSlice] does: the
    last call panics. *)
Example C71_example_panics :
  let C := invariant_consumer (@into_slice_consumer nat) in
  let closed n := let* (s, _) := c_close C tt (invariant_new (into_slice_new (repeat 0 n))) in Ret s in
  (let* s := closed 1 in c_consume C 7 s) = Panic /\
  (let* s := closed 1 in c_close C tt s) = Panic /\
  (let* s := closed 1 in c_flush C s) = Panic /\
  (let* s := closed 1 in c_expose C s) = Panic /\
  (let* s := closed 8 in c_consume_slots C 7 s) = Panic /\
  (let* s := closed 8 in c_bulk_consume C [117; 102; 111] s) = Panic /\
  c_consume_slots C 21 (invariant_new (into_slice_new (repeat 0 8))) = Panic.
Proof. vm_compute. repeat split; reflexivity. Qed.

(** C102: memory. *)
From Coq Require Import Bool List Arith ZArith Lia Init.Byte.
From Verif Require Import Prelude Traits Contracts BasicModel QueueModel AdaptorSpec ScramblerModel FuzzModel CodecModel CodecSpec
  EndianModel MemoryModel MemorySpec MemoryProofs.
Import ListNotations.
Local Open Scope nat_scope.

(** *** Collecting with and without memory: every call has the same answer and effect, unless the allocator refuses. *)
Theorem C102_same_answers :
  forall A T (L : allocator A) (d : T) o s,
  match c_do (miv_consumer L d) o s with
  | Ret (s', r) => c_do (into_vec_consumer d) o (plain s) = Ret (plain s', r)
  | Panic => c_do (into_vec_consumer d) o (plain s) = Panic \/ asks o = true /\ refused L s
  | NoFuel => False
  end.
Proof. intros. apply do_plain. Qed.
Print Assumptions C102_same_answers.

Theorem C102_refusal_panics :
  forall A T (L : allocator A) (d : T) o s, asks o = true -> refused L s -> c_do (miv_consumer L d) o s = Panic.
Proof. intros. now apply do_refused. Qed.
Print Assumptions C102_refusal_panics.

Theorem C102_same_executions :
  forall A T (L : allocator A) (d : T) h s,
  (forall s', c_trace (miv_consumer L d) s h s' -> c_trace (into_vec_consumer d) (plain s) h (plain s')) /\
  (never_refuses L -> forall t, c_trace (into_vec_consumer d) (plain s) h t ->
   exists s', c_trace (miv_consumer L d) s h s' /\ plain s' = t).
Proof. intros. split; [intros; now apply (trace_plain (L := L))|]. intros HN t. now apply trace_memory. Qed.
Print Assumptions C102_same_executions.

(** *** What the constructors and the conversion do, and that the capacity never shrinks and holds all slots. *)
Theorem C102_constructors :
  forall A T (L : allocator A) c a,
  plain (@miv_new A T a) = into_vec_new /\ mi_mem (@miv_new A T a) = a /\ vec_capacity (mi_v (@miv_new A T a)) = 0 /\
  (forall v : vec T, plain (miv_from_vec v a) = into_vec_from_vec (vec_items v) /\ mi_v (miv_from_vec v a) = v) /\
  (forall s : mem_into_vec A T, vec_items (miv_into_vec s) = into_vec_into_vec (plain s)) /\
  (gives_enough L -> never_refuses L ->
   exists s : mem_into_vec A T, miv_with_capacity L c a = Ret s /\ plain s = into_vec_with_capacity c /\ c <= vec_capacity (mi_v s)) /\
  (snd (al_fresh L c a) = None -> c <> 0 -> @miv_with_capacity A T L c a = Panic).
Proof.
  intros A T L c a. do 3 (split; [reflexivity|]). split; [split; reflexivity|]. split; [reflexivity|]. split.
  - intros HG HN. now apply (miv_with_capacity_ok (L := L)).
  - intros H Hc. unfold miv_with_capacity, vec_with_capacity, vec_try_with_capacity.
    destruct (Nat.eqb_spec c 0); [contradiction|]. destruct (al_fresh L c a) as [a' r]. cbn in H. subst r. reflexivity.
Qed.
Print Assumptions C102_constructors.

Theorem C102_capacity :
  forall A T (L : allocator A) (d : T), gives_enough L -> forall v a h s',
  c_trace (miv_consumer L d) (miv_from_vec v a) h s' ->
  vec_capacity v <= vec_capacity (miv_into_vec s') /\
  (length (vec_items v) <= vec_capacity v -> c_rules 0 h -> length (vec_items (mi_v s')) <= vec_capacity (miv_into_vec s')).
Proof.
  intros A T L d HG v a h s' H. split; [exact (trace_cap HG H)|]. intros Hv HR. exact (collected_fits HG Hv H HR).
Qed.
Print Assumptions C102_capacity.

(** What the vectors do when they change their length. *)
Theorem C102_resize :
  forall A T (L : allocator A) n (f : nat -> T) v a a' v', vec_resize_with L n f v a = Ret (a', v') ->
  vec_items v' = firstn n (vec_items v) ++ map f (seq 0 (n - length (vec_items v))) /\
  (n <= vec_capacity v -> a' = a /\ vec_capacity v' = vec_capacity v) /\
  (gives_enough L -> length (vec_items v) <= vec_capacity v -> length (vec_items v') <= vec_capacity v').
Proof. intros A T L n f v a a' v'. exact (@resize_means A T L n f v a a' v'). Qed.
Print Assumptions C102_resize.

(** *** How often, and for how much, the allocator is asked: the number of requests is logarithmic in the number of items, and their
    sum is linear. *)
Theorem C102_requests :
  forall A T (L : allocator A) (d : T) v a log h s',
  c_trace (miv_consumer (recorded L) d) (miv_from_vec v (a, log)) h s' -> c_rules 0 h ->
  exists rs, snd (mi_mem s') = log ++ map Grow rs /\
    (length (vec_items v) + 1) * 2 ^ length rs <= 2 * (length (vec_items (miv_into_vec s')) + 1) /\
    Forall (fun r => r <= 2 * length (vec_items (miv_into_vec s')) + 1) rs /\
    list_sum rs <= 4 * length (vec_items (miv_into_vec s')) + 2.
Proof. intros A T L d v a log h s' H HR. exact (requests H HR). Qed.
Print Assumptions C102_requests.

(** A capacity of [c] saves further requests for [n] items exactly if there is a power of two between [n + 1] and [c + 1]. *)
Theorem C102_saved_requests :
  forall A T (L : allocator A) (d : T) c a s h s',
  miv_with_capacity (recorded L) c a = Ret s -> vec_capacity (mi_v s) = c ->
  c_trace (miv_consumer (recorded L) d) s h s' -> Forall (fun x => filling (fst x)) h ->
  (snd (mi_mem s') = snd (mi_mem s) <-> exists k, length (c_consumed [] h) + 1 <= 2 ^ k /\ 2 ^ k <= c + 1).
Proof. intros A T L d c a s h s' E Hc H HF. exact (no_more_requests _ E Hc H HF). Qed.
Print Assumptions C102_saved_requests.

(** *** Boxed slices: the encoding, whatever the allocator does short of refusing, and whatever the length that was announced. *)
Theorem C102_boxed_slice :
  forall A (L : allocator A), gives_enough L -> never_refuses L ->
  forall V (encode : encode_fn V) enc, lawful_encode encode enc ->
  forall v n a, exists a', mem_encode_into_boxed_slice L x00 (fun C => encode _ _ _ C v) n a = Ret (a', enc v).
Proof. intros A L HG HN V encode enc HL v n a. now apply boxed_slice. Qed.
Print Assumptions C102_boxed_slice.

(** Knowing the size does not save the reallocation, except for single bytes. *)
Theorem C102_number_slices :
  forall A (L : allocator A), gives_enough L -> never_refuses L -> exact_at_first L ->
  forall w (v : num (wrapped w)) a, exists a' rs,
  mem_encode_into_boxed_slice (recorded L) x00 (fun C => endian_encode w C v) (endian_len_of_encoding w v) (a, [])
    = Ret ((a', rs), to_bytes w v) /\
  ((exists m, In (Grow m) rs) <-> BITS (wrapped w) <> 8).
Proof. intros A L HG HN HE w v a. now apply number_slices. Qed.
Print Assumptions C102_number_slices.

Theorem C102_one_allocation_refuted :
  exists (v : num (wrapped U32LE)) rs,
  mem_encode_into_boxed_slice (recorded std_allocator) x00 (fun C => endian_encode U32LE C v) (endian_len_of_encoding U32LE v) (tt, [])
    = Ret ((tt, rs), to_bytes U32LE v) /\ rs = [Fresh 4; Grow 7; Shrink 4].
Proof. exists (num_of u32 66051%Z), [Fresh 4; Grow 7; Shrink 4]. split; vm_compute; reflexivity. Qed.
Print Assumptions C102_one_allocation_refuted.

(** *** The constructors of [Fixed]: [new] and [try_new] differ only in what they do when the first allocation is refused. *)
Theorem C102_fixed :
  forall A T (L : allocator A), gives_enough L -> forall c (tmp : nat -> T) a,
  let new := mem_fixed_new_with_manual_tmps L c tmp a in
  let try_new := mem_fixed_try_new_with_manual_tmps L c tmp a in
  let q := fixed_new_with_manual_tmps c tmp in
  match al_fresh L c a with
  | (a1, None) =>
      if c =? 0 then new = Ret (a, q) /\ try_new = Ret (a, Some q) else new = Panic /\ try_new = Ret (a1, None)
  | (a1, Some k) =>
      if c =? 0 then new = Ret (a, q) /\ try_new = Ret (a, Some q)
      else if c =? k then new = Ret (a1, q) /\ try_new = Ret (a1, Some q)
      else match al_shrink L k c a1 with
           | (a2, true) => new = Ret (a2, q) /\ try_new = Ret (a2, Some q)
           | (a2, false) => new = Panic /\ try_new = Panic
           end
  end.
Proof. intros A T L HG c tmp a. now apply fixed_cases. Qed.
Print Assumptions C102_fixed.

Theorem C102_fixed_default :
  forall A T (L : allocator A) (d : T) c a,
  mem_fixed_new L d c a = mem_fixed_new_with_manual_tmps L c (fun _ => d) a /\
  mem_fixed_try_new L d c a = mem_fixed_try_new_with_manual_tmps L c (fun _ => d) a.
Proof. intros. split; reflexivity. Qed.
Print Assumptions C102_fixed_default.

(** [try_new] panics nevertheless if the allocator gives too much and does not take it back. *)
Theorem C102_try_new_refuted :
  exists (L : allocator nat) a, gives_enough L /\ mem_fixed_try_new L 0 3 a = Panic.
Proof.
  exists stingy_allocator, 4. split; [|vm_compute; reflexivity]. split; cbn.
  - intros n a k. destruct (n + 1 <=? a); cbn; [intros [= <-]; lia|discriminate].
  - intros c n a k. destruct (n + 1 <=? a + c); cbn; [intros [= <-]; lia|discriminate].
Qed.
Print Assumptions C102_try_new_refuted.

(** *** The fuzz target of [IntoVec] with all its assertions. *)
Theorem C102_fuzz_target :
  forall A (L : allocator A), gives_enough L -> never_refuses L ->
  forall dbg fuel input capacity ops a, (forall n, In (ScConsumeSlots n) ops -> 1 <= n) ->
  S scrambler_capacity * S (length ops) <= fuel -> (dbg = true -> length input <= scrambler_capacity) ->
  mem_fuzz_into_vec L dbg fuel input capacity ops a = Ret tt.
Proof. intros A L HG HN dbg fuel input capacity ops a. now apply mem_fuzz_passes. Qed.
Print Assumptions C102_fuzz_target.

(** *** Examples *)

Example C102_resize_example :
  vec_resize_with stingy_allocator 2 (fun i => 10 + i) (mk_vec [1; 2; 3] 4) 0 = Ret (0, mk_vec [1; 2] 4) /\
  vec_resize_with stingy_allocator 6 (fun i => 10 + i) (mk_vec [1; 2; 3] 4) 5 = Ret (2, mk_vec [1; 2; 3; 10; 11; 12] 7).
Proof. split; vm_compute; reflexivity. Qed.

Example C102_std_ok : gives_enough std_allocator /\ never_refuses std_allocator /\ exact_at_first std_allocator.
Proof.
  split; [|split].
  - split; [intros n a k [= <-]; lia|]. intros c n a k [= <-].
    exact (Nat.le_trans _ _ _ (Nat.le_max_r (2 * c) n) (Nat.le_max_r 8 _)).
  - split; cbn; intros; congruence.
  - intros n a. reflexivity.
Qed.

Example C102_exact_ok : gives_enough exact_allocator /\ never_refuses exact_allocator /\ exact_at_first exact_allocator.
Proof.
  split; [|split].
  - split; [intros n a k [= <-]; lia|intros c n a k [= <-]; lia].
  - split; cbn; intros; congruence.
  - intros n a. reflexivity.
Qed.

(** Six items into a vector that starts with room for six: the seven slots do not fit. *)
Definition six : list (cop nat unit * cans infallible) :=
  [(CConsume 1, CAUnit (Ok tt)); (CBulkConsume [2; 3; 4], CANat (Ok 2)); (CFlush, CAUnit (Ok tt));
   (CBulkConsume [4; 5; 6], CANat (Ok 3))].

Example C102_six :
  exists s s', miv_with_capacity (recorded exact_allocator) 6 (tt, []) = Ret s /\ vec_capacity (mi_v s) = 6 /\
  c_trace (miv_consumer (recorded exact_allocator) 0) s six s' /\ Forall (fun x => filling (fst x)) six /\ c_rules 0 six /\
  length (c_consumed [] six) = 6 /\ snd (mi_mem s) = [Fresh 6] /\ snd (mi_mem s') = [Fresh 6; Grow 7] /\
  miv_into_vec s' = mk_vec [1; 2; 3; 4; 5; 6] 7.
Proof.
  do 2 eexists. split; [vm_compute; reflexivity|]. split; [reflexivity|]. split; [repeat (econstructor; [vm_compute; reflexivity|]); constructor|].
  split; [repeat constructor; cbn; congruence|]. split; [cbn; lia|]. split; [reflexivity|]. split; [reflexivity|]. split; reflexivity.
Qed.

(** With room for seven they do. *)
Example C102_seven :
  exists s s', miv_with_capacity (recorded exact_allocator) 7 (tt, []) = Ret s /\
  c_trace (miv_consumer (recorded exact_allocator) 0) s six s' /\ snd (mi_mem s') = [Fresh 7].
Proof.
  do 2 eexists. split; [vm_compute; reflexivity|]. split; [repeat (econstructor; [vm_compute; reflexivity|]); constructor|reflexivity].
Qed.

(** A refusal in the middle: three items fit, the fourth needs seven slots. *)
Example C102_stingy :
  let s := mk_miv (mk_vec [1; 2; 3] 4) 3 2 in
  refused stingy_allocator s /\ c_do (miv_consumer stingy_allocator 0) (CConsume 4) s = Panic /\
  (exists p, c_do (into_vec_consumer 0) (CConsume 4) (plain s) = Ret (p, CAUnit (Ok tt))) /\
  c_do (miv_consumer stingy_allocator 0) CFlush s = Ret (s, CAUnit (Ok tt)).
Proof. split; [vm_compute; auto|]. split; [reflexivity|]. split; [eexists; vm_compute; reflexivity|reflexivity]. Qed.

Example C102_slices :
  mem_encode_into_boxed_slice (recorded exact_allocator) x00 (fun C => endian_encode U8LE C (num_of u8 7%Z)) 1 (tt, [])
    = Ret ((tt, [Fresh 1]), [x07]) /\
  mem_encode_into_boxed_slice (recorded exact_allocator) x00 (fun C => endian_encode U64BE C (num_of u64 7%Z)) 8 (tt, [])
    = Ret ((tt, [Fresh 8; Grow 15; Shrink 8]), [x00; x00; x00; x00; x00; x00; x00; x07]).
Proof. split; vm_compute; reflexivity. Qed.

Example C102_fixed_example :
  mem_fixed_try_new stingy_allocator 0 3 3 = Ret (3, None) /\ mem_fixed_new stingy_allocator 0 3 3 = Panic /\
  mem_fixed_try_new stingy_allocator 0 3 9 = Ret (6, Some (fixed_new 0 3)) /\
  mem_fixed_try_new stingy_allocator 0 0 0 = Ret (0, Some (fixed_new 0 0)).
Proof. repeat split; vm_compute; reflexivity. Qed.

Example C102_fuzz_example :
  mem_fuzz_into_vec std_allocator true 8196 [3; 1; 4] 2 [ScConsume; ScFlush; ScConsumeSlots 2] tt = Ret tt /\
  mem_fuzz_into_vec (mk_allocator (fun n a => (a, Some (n - 1))) (fun _ n a => (a, Some n)) (fun _ _ a => (a, true)))
    true 8196 [3; 1; 4] 9 [ScConsume] tt = Panic.
Proof. split; vm_compute; reflexivity. Qed.

(** The documentation example of [with_capacity], into_vec.rs 47-61. *)
Example C102_documentation :
  (let* s := miv_with_capacity std_allocator 999 tt in
   let* (s, r) := miv_consume std_allocator 0 4 s in
   assert (is_ok r) ;;
   let* (s, r) := miv_consume std_allocator 0 7 s in
   assert (is_ok r) ;;
   let collected := miv_into_vec s in
   assert (999 <=? vec_capacity collected) ;;
   assert_eq [4; 7] (vec_items collected)) = Ret tt.
Proof. vm_compute. reflexivity. Qed.

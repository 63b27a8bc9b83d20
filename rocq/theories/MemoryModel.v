(** Memory: vectors with a capacity, an allocator that may refuse, and the code that depends on them: [IntoVec]
    (ufotofu/src/consumer/into_vec.rs), the constructors of [Fixed] (ufotofu_queues/src/fixed.rs) and the boxed slices of
    the codecs (ufotofu_codec/src/encode.rs).

    Simplifications: capacities are counted in items, and items take up memory (vectors of items of size zero never
    allocate). A refusal makes the infallible methods of [Vec] abort; this is a panic here. What [Vec] does with its
    capacity is taken from its documentation: it asks for memory only when the capacity does not suffice, it may get more
    than it asks for, and it keeps what it has when it gets shorter. *)
From Coq Require Import Bool List Arith.
From Verif Require Import Prelude Traits BasicModel QueueModel ScramblerModel FuzzModel.
Import ListNotations.
Set Implicit Arguments.

(** What [Vec] gets when it asks for memory: the new capacity, or a refusal. The allocator has a state of its own. *)
Record allocator (A : Type) : Type := mk_allocator {
  (** a first allocation, for at least so many items *)
  al_fresh : nat -> A -> A * option nat;
  (** a reallocation: from this capacity to at least that one *)
  al_grow : nat -> nat -> A -> A * option nat;
  (** a reallocation from this capacity down to exactly that one *)
  al_shrink : nat -> nat -> A -> A * bool
}.

Record vec (T : Type) : Type := mk_vec { vec_items : list T; vec_capacity : nat }.

Section Memory.
  Context {A T : Type} (L : allocator A).

  (** [Vec::new]. *)
  Definition vec_new : vec T := mk_vec [] 0.

  (** [Vec::try_with_capacity(capacity).ok()] *)
  Definition vec_try_with_capacity (capacity : nat) (a : A) : A * option (vec T) :=
    if capacity =? 0 then (a, Some vec_new)
    else
      let (a, got) := al_fresh L capacity a in
      (a, match got with Some k => Some (mk_vec [] k) | None => None end).

  (** [Vec::with_capacity(capacity)] *)
  Definition vec_with_capacity (capacity : nat) (a : A) : outcome (A * vec T) :=
    let (a, v) := vec_try_with_capacity capacity a in
    let* v := expect v in Ret (a, v).

  (** [v.truncate(n)] *)
  Definition vec_truncate (n : nat) (v : vec T) : vec T := mk_vec (firstn n (vec_items v)) (vec_capacity v).

  (** [v.resize_with(n, f)]; [f i] is the value of the i-th call of the closure. *)
  Definition vec_resize_with (n : nat) (f : nat -> T) (v : vec T) (a : A) : outcome (A * vec T) :=
    let missing := n - length (vec_items v) in
    if missing =? 0 then Ret (a, vec_truncate n v)
    else if n <=? vec_capacity v then Ret (a, mk_vec (vec_items v ++ map f (seq 0 missing)) (vec_capacity v))
    else
      let (a, got) := al_grow L (vec_capacity v) n a in
      let* k := expect got in
      Ret (a, mk_vec (vec_items v ++ map f (seq 0 missing)) k).

  (** [v.into_boxed_slice()]: gives back what is not needed. *)
  Definition vec_into_boxed_slice (v : vec T) (a : A) : outcome (A * list T) :=
    if length (vec_items v) <? vec_capacity v then
      let (a, ok) := al_shrink L (vec_capacity v) (length (vec_items v)) a in
      if ok then Ret (a, vec_items v) else Panic
    else Ret (a, vec_items v).

  (** ** IntoVec *)

  (** into_vec.rs 129-132, with the allocator. *)
  Record mem_into_vec : Type := mk_miv { mi_v : vec T; mi_consumed : nat; mi_mem : A }.

  Context (default : T).

  (** into_vec.rs 83-90, 41-43, 62-64. *)
  Definition miv_from_vec (v : vec T) (a : A) : mem_into_vec := mk_miv v (length (vec_items v)) a.
  Definition miv_new (a : A) : mem_into_vec := miv_from_vec vec_new a.
  Definition miv_with_capacity (capacity : nat) (a : A) : outcome mem_into_vec :=
    let* (a, v) := vec_with_capacity capacity a in
    Ret (miv_from_vec v a).

  (** into_vec.rs 142-146. *)
  Definition miv_into_vec (s : mem_into_vec) : vec T := vec_truncate (mi_consumed s) (mi_v s).

  (** into_vec.rs 150-155. *)
  Definition miv_make_space_if_needed (s : mem_into_vec) : outcome mem_into_vec :=
    if mi_consumed s =? length (vec_items (mi_v s)) then
      let* (a, v) := vec_resize_with (mi_consumed s * 2 + 1) (fun _ => default) (mi_v s) (mi_mem s) in
      Ret (mk_miv v (mi_consumed s) a)
    else Ret s.

  (** into_vec.rs 171-179. *)
  Definition miv_consume (item : T) (s : mem_into_vec) : outcome (mem_into_vec * res unit infallible) :=
    let* s := miv_make_space_if_needed s in
    let* items := index_set (mi_consumed s) item (vec_items (mi_v s)) in
    Ret (mk_miv (mk_vec items (vec_capacity (mi_v s))) (mi_consumed s + 1) (mi_mem s), Ok tt).

  (** into_vec.rs 181-183, 187-189. *)
  Definition miv_close (fin : unit) (s : mem_into_vec) : outcome (mem_into_vec * res unit infallible) := Ret (s, Ok tt).
  Definition miv_flush (s : mem_into_vec) : outcome (mem_into_vec * res unit infallible) := Ret (s, Ok tt).

  (** into_vec.rs 193-201. *)
  Definition miv_expose (s : mem_into_vec) : outcome (mem_into_vec * res nat infallible) :=
    let* s := miv_make_space_if_needed s in
    let* slots := slice_from (mi_consumed s) (vec_items (mi_v s)) in
    Ret (s, Ok (length slots)).

  (** The caller writing into [v[consumed..]]. *)
  Definition miv_write (ys : list T) (s : mem_into_vec) : mem_into_vec :=
    mk_miv (mk_vec (blit (mi_consumed s) ys (vec_items (mi_v s))) (vec_capacity (mi_v s))) (mi_consumed s) (mi_mem s).

  (** into_vec.rs 203-207. *)
  Definition miv_consume_slots (amount : nat) (s : mem_into_vec) : outcome (mem_into_vec * res unit infallible) :=
    Ret (mk_miv (mi_v s) (mi_consumed s + amount) (mi_mem s), Ok tt).

  Definition miv_consumer : bulk_consumer mem_into_vec T unit infallible :=
    bulk_consumer_of miv_consume miv_close miv_flush miv_expose miv_write miv_consume_slots.

  (** ** Boxed slices: [encode_into_boxed_slice], encode.rs 52-61, and [relative_encode_into_boxed_slice],
      relative_encode.rs 64-74; [encode] is the encoder of the value at hand, [len] its [len_of_encoding]. *)
  Definition mem_encode_into_boxed_slice
      (encode : bulk_consumer mem_into_vec T unit infallible -> mem_into_vec -> outcome (mem_into_vec * res unit infallible))
      (len : nat) (a : A) : outcome (A * list T) :=
    let* c := miv_with_capacity len a in
    let* (c, r) := encode miv_consumer c in
    match r with
    | Ok tt => vec_into_boxed_slice (miv_into_vec c) (mi_mem c)
    | Err _ => Panic
    end.

  (** ** The constructors of [Fixed] *)

  (** fixed.rs 70-82 and 169-181 ([new_in_with_manual_tmps]); [tmp i] is the value of the i-th call of the closure. *)
  Definition mem_fixed_new_with_manual_tmps (capacity : nat) (tmp : nat -> T) (a : A) : outcome (A * fixed T) :=
    let* (a, v) := vec_with_capacity capacity a in
    let* (a, v) := vec_resize_with capacity tmp v a in
    let* (a, data) := vec_into_boxed_slice v a in
    Ret (a, mk_fixed data 0 0).

  (** fixed.rs 86-98 and 185-199. *)
  Definition mem_fixed_try_new_with_manual_tmps (capacity : nat) (tmp : nat -> T) (a : A) : outcome (A * option (fixed T)) :=
    let (a, v) := vec_try_with_capacity capacity a in
    match v with
    | None => Ret (a, None)
    | Some v =>
        let* (a, v) := vec_resize_with capacity tmp v a in
        let* (a, data) := vec_into_boxed_slice v a in
        Ret (a, Some (mk_fixed data 0 0))
    end.

  (** fixed.rs 43-52 and 142-151; 56-65 and 154-163. *)
  Definition mem_fixed_new (capacity : nat) : A -> outcome (A * fixed T) :=
    mem_fixed_new_with_manual_tmps capacity (fun _ => default).
  Definition mem_fixed_try_new (capacity : nat) : A -> outcome (A * option (fixed T)) :=
    mem_fixed_try_new_with_manual_tmps capacity (fun _ => default).
End Memory.
Arguments mem_into_vec A T : clear implicits.
Arguments mk_miv {A T} mi_v mi_consumed mi_mem.
Arguments vec_new {T}.

(** The whole fuzz target fuzz_targets/ufotofu/into_vec.rs 9-25, with the assertion of line 22 on the capacity. *)
Definition mem_fuzz_into_vec {A : Type} (L : allocator A) (dbg : bool) (fuel : nat) (input : list nat) (capacity : nat)
    (ops : list cscr_op) (a : A) : outcome unit :=
  let capacity := Nat.min capacity 2048 in
  let* inner := miv_with_capacity L capacity a in
  let into_vec := cscr_new_with_capacity 0 inner ops scrambler_capacity in
  let CS := cscr_consumer dbg 0 fuel (miv_consumer L 0) in
  let* into_vec := consume_each CS input into_vec in
  let* (into_vec, r) := c_flush CS into_vec in
  assert (is_ok r) ;;
  let collected := miv_into_vec (cs_inner into_vec) in
  assert (capacity <=? vec_capacity collected) ;;
  assert_eq input (vec_items collected).

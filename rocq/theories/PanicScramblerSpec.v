(** Specification of the BulkScramblers around objects whose methods may panic: where the items go. *)
From Coq Require Import Bool List Arith.
From Verif Require Import Prelude Traits CloneModel PanicModel PanicSpec.
Import ListNotations.
Set Implicit Arguments.

(** ** Producers *)

(** The items that a caller takes out of a producer with these calls, provided that it marks items as produced only directly after they
    were exposed, and then whatever comes of it. *)
Inductive drawn {T F E} : list pcall -> list (panswer T F E) -> list T -> Prop :=
| drawn_nil : drawn [] [] []
| drawn_item : forall x ops ans xs, drawn ops ans xs -> drawn (PProduce :: ops) (PItem (Done (Ok (inl x))) :: ans) (x :: xs)
| drawn_no_item : forall r ops ans xs, (forall x, r <> Done (Ok (inl x))) -> drawn ops ans xs -> drawn (PProduce :: ops) (PItem r :: ans) xs
| drawn_slurp : forall r ops ans xs, drawn ops ans xs -> drawn (PSlurp :: ops) (PUnit r :: ans) xs
| drawn_slice : forall ys n r ops ans xs, n <= length ys -> drawn ops ans xs ->
    drawn (PExpose :: PConsider n :: ops) (PSlice (Done (Ok (inl ys))) :: PUnit r :: ans) (firstn n ys ++ xs)
| drawn_no_slice : forall r ops ans xs, (forall ys, r <> Done (Ok (inl ys))) -> drawn ops ans xs -> drawn (PExpose :: ops) (PSlice r :: ans) xs.

(** What is on display after a call. *)
Definition on_display {T F E} (o : pcall) (a : panswer T F E) (shown : list T) : list T :=
  match o, a with
  | PExpose, PSlice (Done (Ok (inl ys))) => ys
  | PConsider n, _ => skipn n shown
  | _, _ => []
  end.

(** A caller that makes these calls, catches what panics, and never marks more as produced than is on display: it makes do with what is. *)
Fixpoint p_use {W S T F E} (P : v_producer W S T F E) (shown : list T) (ops : list pcall) (s : S) (w : W)
  : outcome (S * W * list (pcall * panswer T F E)) :=
  match ops with
  | [] => Ret (s, w, [])
  | o :: ops =>
      let o := match o with PConsider n => PConsider (Nat.min n (length shown)) | o => o end in
      let* (s, w, a) := p_call P o s w in
      let* (s, w, rest) := p_use P (on_display o a shown) ops s w in
      Ret (s, w, (o, a) :: rest)
  end.

(** The items that caller got. *)
Fixpoint given {T F E} (shown : list T) (h : list (pcall * panswer T F E)) : list T :=
  match h with
  | [] => []
  | (o, a) :: h =>
      match o, a with
      | PProduce, PItem (Done (Ok (inl x))) => [x]
      | PConsider n, _ => firstn n shown
      | _, _ => []
      end ++ given (on_display o a shown) h
  end.

(** Did the call panic? *)
Definition panicked {T F E} (a : panswer T F E) : bool := match a with PItem Unwound | PSlice Unwound | PUnit Unwound => true | _ => false end.

(** Was the last answer the final value or an error? *)
Fixpoint ends {T F E} (h : list (pcall * panswer T F E)) : bool :=
  match h with
  | [] => false
  | [(o, a)] => is_end o a
  | _ :: h => ends h
  end.

(** ** Consumers *)

(** The items that a caller puts into a consumer with these calls, provided that it fills slots only directly after they were exposed, and then
    whatever comes of it; and the final values. *)
Inductive fed {T F E} : list (ccall T F) -> list (canswer E) -> list T -> list F -> Prop :=
| fed_nil : fed [] [] [] []
| fed_item : forall x r ops ans xs fs, fed ops ans xs fs -> fed (CConsume x :: ops) (CUnit r :: ans) (x :: xs) fs
| fed_final : forall f r ops ans xs fs, fed ops ans xs fs -> fed (CClose f :: ops) (CUnit r :: ans) xs (f :: fs)
| fed_flush : forall r ops ans xs fs, fed ops ans xs fs -> fed (CFlush :: ops) (CUnit r :: ans) xs fs
| fed_slots : forall k ys r ops ans xs fs, length ys <= k -> fed ops ans xs fs ->
    fed (CExpose :: CWrite ys :: CConsumeSlots (length ys) :: ops) (CSlots (Done (Ok k)) :: CWritten :: CUnit r :: ans) (ys ++ xs) fs
| fed_no_slots : forall r ops ans xs fs, (forall k, r <> Done (Ok k)) -> fed ops ans xs fs -> fed (CExpose :: ops) (CSlots r :: ans) xs fs.

(** How many slots there are after a call, and what is written in them. *)
Definition slots_after {T F E} (o : ccall T F) (a : canswer E) (k : nat) (ys : list T) : nat * list T :=
  match o, a with
  | CExpose, CSlots (Done (Ok k')) => (k', [])
  | CWrite zs, _ => (k, zs ++ skipn (length zs) ys)
  | CConsumeSlots n, _ => (k - n, skipn n ys)
  | _, _ => (0, [])
  end.

(** A caller that makes these calls, catches what panics, writes only into slots it was given, and marks only slots it has written. *)
Fixpoint c_use {W S T F E} (C : v_consumer W S T F E) (k : nat) (ys : list T) (ops : list (ccall T F)) (s : S) (w : W)
  : outcome (S * W * list (ccall T F * canswer E)) :=
  match ops with
  | [] => Ret (s, w, [])
  | o :: ops =>
      let o := match o with CWrite zs => CWrite (firstn k zs) | CConsumeSlots n => CConsumeSlots (Nat.min n (length ys)) | o => o end in
      let* (s, w, a) := c_call C o s w in
      let* (s, w, rest) := let (k, ys) := slots_after o a k ys in c_use C k ys ops s w in
      Ret (s, w, (o, a) :: rest)
  end.

(** The items of that caller that were accepted. *)
Fixpoint accepted {T F E} (k : nat) (ys : list T) (h : list (ccall T F * canswer E)) : list T :=
  match h with
  | [] => []
  | (o, a) :: h =>
      match o, a with
      | CConsume x, CUnit (Done (Ok tt)) => [x]
      | CConsumeSlots n, _ => firstn n ys
      | _, _ => []
      end ++ let (k, ys) := slots_after o a k ys in accepted k ys h
  end.

Definition c_panicked {E} (a : canswer E) : bool := match a with CUnit Unwound | CSlots Unwound => true | _ => false end.

(** Was the last call a [close] or [flush] that succeeded? *)
Fixpoint settled {T F E} (h : list (ccall T F * canswer E)) : bool :=
  match h with
  | [] => false
  | [(CClose _, CUnit (Done (Ok _)))] | [(CFlush, CUnit (Done (Ok _)))] => true
  | _ :: h => settled h
  end.

(** Only final values that the caller gave reach the inner consumer, in that order. *)
Inductive subsequence {A} : list A -> list A -> Prop :=
| sub_nil : subsequence [] []
| sub_skip : forall x l m, subsequence l m -> subsequence l (x :: m)
| sub_take : forall x l m, subsequence l m -> subsequence (x :: l) (x :: m).
Definition closings {T F E} (h : list (ccall T F * canswer E)) : list F :=
  flat_map (fun c => match fst c with CClose f => [f] | _ => [] end) h.

(** Specifications for the adaptors. *)
From Coq Require Import Bool List Arith.
From Verif Require Import Prelude Traits Contracts.
Import ListNotations.
Set Implicit Arguments.

(** ** Plain executions *)

(** [p_trace P s h s']: making the calls of [h] yields the answers of [h]. Nothing is said about
    whether calls are permitted or answers sensible. *)
Inductive p_trace {S T F E} (P : bulk_producer S T F E) : S -> list (pop T * pans T F E) -> S -> Prop :=
| p_trace_nil : forall s, p_trace P s [] s
| p_trace_step : forall s o s1 r h s', p_do P o s = Ret (s1, r) -> p_trace P s1 h s' ->
    p_trace P s ((o, r) :: h) s'.

Inductive c_trace {S T F E} (C : bulk_consumer S T F E) : S -> list (cop T F * cans E) -> S -> Prop :=
| c_trace_nil : forall s, c_trace C s [] s
| c_trace_step : forall s o s1 r h s', c_do C o s = Ret (s1, r) -> c_trace C s1 h s' ->
    c_trace C s ((o, r) :: h) s'.

(** ** The documented rules for callers, judged from calls and answers alone *)

(** Answers after which no method may be called any more. *)
Definition p_ends {T F E} (r : pans T F E) : bool :=
  match r with
  | PAItem (Ok (inl _)) | PAUnit (Ok _) | PASlice (Ok (inl _)) | PABuf _ (Ok (inl _)) => false
  | _ => true
  end.

(** How many items are on display after a call, given how many were before. *)
Definition p_shown {T F E} (k : nat) (o : pop T) (r : pans T F E) : nat :=
  match o, r with
  | PProduce, _ => k - 1
  | PSlurp, _ => k
  | PExpose, PASlice (Ok (inl ys)) => length ys
  | PConsider n, _ => k - n
  | _, _ => 0
  end.

Fixpoint p_rules {T F E} (k : nat) (h : list (pop T * pans T F E)) : Prop :=
  match h with
  | [] => True
  | (o, r) :: h =>
      match o with PConsider n => n <= k | _ => True end /\
      if p_ends r then h = [] else p_rules (p_shown k o r) h
  end.

Definition c_ends {T F E} (o : cop T F) (r : cans E) : bool :=
  match o, r with
  | CClose _, _ => true
  | _, CAUnit (Err _) | _, CASlots (Err _) | _, CANat (Err _) => true
  | _, _ => false
  end.

Definition c_shown {T F E} (k : nat) (o : cop T F) (r : cans E) : nat :=
  match o, r with
  | CFlush, _ | CWrite _, _ => k
  | CExpose, CASlots (Ok n) => n
  | CConsumeSlots n, _ => k - n
  | _, _ => 0
  end.

Fixpoint c_rules {T F E} (k : nat) (h : list (cop T F * cans E)) : Prop :=
  match h with
  | [] => True
  | (o, r) :: h =>
      match o with CWrite ys => length ys <= k | CConsumeSlots n => n <= k | _ => True end /\
      if c_ends o r then h = [] else c_rules (c_shown k o r) h
  end.

(** ** Limit *)

(** The last value of the limited sequence. *)
Definition limit_last {T F E} (n : nat) (xs : list T) (l : res F E) : res (option F) E :=
  if length xs <? n
  then match l with Ok f => Ok (Some f) | Err e => Err e end
  else Ok None.

(** A machine that accepts at most as many items as its counter says. *)
Definition limit_machine {A T F E} (M : machine A T F E) : machine (nat * A) T F (option E) :=
  mk_machine
    (fun x na => match fst na with
                 | 0 => (na, Err None)
                 | S n => let (a, r) := m_step M x (snd na) in ((n, a), map_err Some r)
                 end)
    (fun f na => let (a, r) := m_finish M f (snd na) in ((fst na, a), map_err Some r))
    (fun na => let (a, r) := m_flush M (snd na) in ((fst na, a), map_err Some r)).

(** ** MapItem: calls of plain buffered producers and consumers *)

Inductive bpop : Type := BProduce | BSlurp.
Inductive bpans (T F E : Type) : Type :=
| BPItem (r : res (T + F) E)
| BPUnit (r : res unit E).
Arguments BPItem {T F E} r.
Arguments BPUnit {T F E} r.

(** All answers to a list of calls, and how it ends. *)
Fixpoint bp_run {S T F E} (P : buffered_producer S T F E) (ops : list bpop) (s : S)
  : list (bpans T F E) * outcome S :=
  match ops with
  | [] => ([], Ret s)
  | o :: ops =>
      match (match o with
             | BProduce => let* (s, r) := p_produce P s in Ret (s, BPItem r)
             | BSlurp => let* (s, r) := p_slurp P s in Ret (s, BPUnit r)
             end) with
      | Ret (s, r) => (r :: fst (bp_run P ops s), snd (bp_run P ops s))
      | Panic => ([], Panic)
      | NoFuel => ([], NoFuel)
      end
  end.

(** The answers with each item replaced by what the closure makes of it; [w] is the
    state of the closure. *)
Fixpoint map_answers {T U W F E} (f : W -> T -> W * U) (w : W) (rs : list (bpans T F E)) : list (bpans U F E) :=
  match rs with
  | [] => []
  | BPItem (Ok (inl x)) :: rs => BPItem (Ok (inl (snd (f w x)))) :: map_answers f (fst (f w x)) rs
  | BPItem (Ok (inr y)) :: rs => BPItem (Ok (inr y)) :: map_answers f w rs
  | BPItem (Err e) :: rs => BPItem (Err e) :: map_answers f w rs
  | BPUnit r :: rs => BPUnit r :: map_answers f w rs
  end.

Inductive bcop (T F : Type) : Type := BConsume (x : T) | BClose (f : F) | BFlush.
Arguments BConsume {T F} x.
Arguments BClose {T F} f.
Arguments BFlush {T F}.

Fixpoint bc_run {S T F E} (C : buffered_consumer S T F E) (ops : list (bcop T F)) (s : S)
  : list (res unit E) * outcome S :=
  match ops with
  | [] => ([], Ret s)
  | o :: ops =>
      match (match o with
             | BConsume x => c_consume C x s
             | BClose f => c_close C f s
             | BFlush => c_flush C s
             end) with
      | Ret (s, r) => (r :: fst (bc_run C ops s), snd (bc_run C ops s))
      | Panic => ([], Panic)
      | NoFuel => ([], NoFuel)
      end
  end.

Fixpoint map_calls {T U W F} (f : W -> U -> W * T) (w : W) (ops : list (bcop U F)) : list (bcop T F) :=
  match ops with
  | [] => []
  | BConsume x :: ops => BConsume (snd (f w x)) :: map_calls f (fst (f w x)) ops
  | BClose y :: ops => BClose y :: map_calls f w ops
  | BFlush :: ops => BFlush :: map_calls f w ops
  end.

(** The items in answers and calls, and the closure state after having been applied to items. *)
Definition answered_items {T F E} (rs : list (bpans T F E)) : list T :=
  flat_map (fun r => match r with BPItem (Ok (inl x)) => [x] | _ => [] end) rs.
Definition called_items {T F} (ops : list (bcop T F)) : list T :=
  flat_map (fun o => match o with BConsume x => [x] | _ => [] end) ops.
Definition closure_after {T U W} (f : W -> T -> W * U) (w : W) (xs : list T) : W :=
  fold_left (fun w x => fst (f w x)) xs w.

Definition omap {A B} (f : A -> B) (o : outcome A) : outcome B := let* a := o in Ret (f a).

(** ** MapFinal *)

(** An answer with its final value mapped. *)
Definition final_mapped {X F B E} (g : F -> B) (r : res (X + F) E) : res (X + B) E :=
  match r with Ok (inl x) => Ok (inl x) | Ok (inr f) => Ok (inr (g f)) | Err e => Err e end.

Definition pans_final_mapped {T F B E} (g : F -> B) (r : pans T F E) : pans T B E :=
  match r with
  | PAItem r => PAItem (final_mapped g r)
  | PAUnit r => PAUnit r
  | PASlice r => PASlice (final_mapped g r)
  | PABuf buf r => PABuf buf (final_mapped g r)
  end.

(** How many answers carry a final value. *)
Definition is_final {X F E} (r : res (X + F) E) : bool := match r with Ok (inr _) => true | _ => false end.
Definition pans_final {T F E} (r : pans T F E) : bool :=
  match r with PAItem r => is_final r | PASlice r => is_final r | PABuf _ r => is_final r | PAUnit _ => false end.
Definition finals {T F E} (h : list (pop T * pans T F E)) : nat :=
  length (filter (fun x => pans_final (snd x)) h).

(** A call with its final value mapped, and how many calls carry one. *)
Definition cop_final_mapped {T F B} (g : B -> F) (o : cop T B) : cop T F :=
  match o with
  | CConsume x => CConsume x | CClose b => CClose (g b) | CFlush => CFlush | CExpose => CExpose
  | CWrite ys => CWrite ys | CConsumeSlots n => CConsumeSlots n | CBulkConsume buf => CBulkConsume buf
  end.
Definition closes {T F E} (h : list (cop T F * cans E)) : nat :=
  length (filter (fun x => match fst x with CClose _ => true | _ => false end) h).

Definition res_map {A B E} (g : A -> B) (r : res A E) : res B E :=
  match r with Ok a => Ok (g a) | Err e => Err e end.

Definition finish_mapped {A T F B E} (g : B -> F) (M : machine A T F E) : machine A T B E :=
  mk_machine (m_step M) (fun b => m_finish M (g b)) (m_flush M).

(** ** Invariant: items of the most recent exposure that were marked since, [None] if other items
    have been exposed since *)
Fixpoint marked {T} (ops : list (pop T)) : option nat :=
  match ops with
  | [] => Some 0
  | PExpose :: _ | PBulkProduce _ :: _ => None
  | PConsider n :: ops => option_map (fun m => n + m) (marked ops)
  | _ :: ops => marked ops
  end.

Fixpoint c_marked {T F} (ops : list (cop T F)) : option nat :=
  match ops with
  | [] => Some 0
  | CExpose :: _ | CBulkConsume _ :: _ => None
  | CConsumeSlots n :: ops => option_map (fun m => n + m) (c_marked ops)
  | _ :: ops => c_marked ops
  end.

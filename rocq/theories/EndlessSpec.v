(** Producers that never end: what it means to follow the rules with a sequence that has no last value. The contracts in Contracts.v
    speak about finite sequences only. *)
From Coq Require Import List Arith.
From Verif Require Import Prelude Traits Contracts AdaptorModel IoModel.
Import ListNotations.
Set Implicit Arguments.

(** [n] items of the endless sequence [g] from position [i] on. *)
Definition stretch {T} (g : nat -> T) (i n : nat) : list T := map g (seq i n).

(** The rules for callers: [k] items are on display. *)
Definition e_permitted {T} (k : nat) (o : pop T) : Prop :=
  match o with
  | PConsider n => 1 <= k /\ n <= k
  | PBulkProduce buf => buf <> []
  | _ => True
  end.

(** The answer to a call at position [i] with [k] items on display, and the position and display afterwards. *)
Definition e_answer {T F E} (g : nat -> T) (i k : nat) (o : pop T) (r : pans T F E) (i' k' : nat) : Prop :=
  match o, r with
  | PProduce, PAItem r => r = Ok (inl (g i)) /\ i' = S i /\ k' = k - 1
  | PSlurp, PAUnit r => r = Ok tt /\ i' = i /\ k' = k
  | PExpose, PASlice r => r = Ok (inl (stretch g i k')) /\ 1 <= k' /\ i' = i
  | PConsider n, PAUnit r => r = Ok tt /\ i' = i + n /\ k' = k - n
  | PBulkProduce buf, PABuf buf' r => exists n, 1 <= n <= length buf /\
      r = Ok (inl n) /\ buf' = stretch g i n ++ skipn n buf /\ i' = i + n /\ k' = 0
  | _, _ => False
  end.

(** Calling [ops] answers as the endless sequence demands, for as long as the caller respects the rules. *)
Inductive e_conforms {S T F E} (P : bulk_producer S T F E) (g : nat -> T) : list (pop T) -> S -> nat -> nat -> Prop :=
| e_conforms_nil : forall s i k, e_conforms P g [] s i k
| e_conforms_broken : forall o ops s i k, ~ e_permitted k o -> e_conforms P g (o :: ops) s i k
| e_conforms_step : forall o ops s i k s' r i' k',
    e_permitted k o -> p_do P o s = Ret (s', r) -> e_answer g i k o r i' k' ->
    e_conforms P g ops s' i' k' -> e_conforms P g (o :: ops) s i k.

(** The contract as a relation between states, positions and numbers of items on display. *)
Record endless_core {S T F E} (P : bulk_producer S T F E) (g : nat -> T) (R : S -> nat -> nat -> Prop) : Prop := {
  en_forget : forall s i k, R s i k -> R s i 0;
  en_produce : forall s i k, R s i k -> exists s', p_produce P s = Ret (s', Ok (inl (g i))) /\ R s' (Datatypes.S i) (k - 1);
  en_slurp : forall s i k, R s i k -> exists s', p_slurp P s = Ret (s', Ok tt) /\ R s' i k;
  en_expose : forall s i k, R s i k -> exists s' n, p_expose P s = Ret (s', Ok (inl (stretch g i n))) /\ 1 <= n /\ R s' i n;
  en_consider : forall s i k n, R s i k -> 1 <= k -> n <= k -> exists s', p_consider P n s = Ret (s', Ok tt) /\ R s' (i + n) (k - n)
}.
Arguments en_forget {S T F E P g R} _ {s i k} _.
Arguments en_produce {S T F E P g R} _ {s i k} _.
Arguments en_slurp {S T F E P g R} _ {s i k} _.
Arguments en_expose {S T F E P g R} _ {s i k} _.
Arguments en_consider {S T F E P g R} _ {s i k} n _ _ _.

Record endless_producer {S T F E} (P : bulk_producer S T F E) (g : nat -> T) (R : S -> nat -> nat -> Prop) : Prop := {
  en_core :> endless_core P g R;
  en_bulk : forall s i k buf, R s i k -> buf <> [] ->
    exists s' n, p_bulk_produce P buf s = Ret (s', (stretch g i n ++ skipn n buf, Ok (inl n))) /\ 1 <= n <= length buf /\ R s' (i + n) 0
}.
Arguments en_core {S T F E P g R} _.
Arguments en_bulk {S T F E P g R} _ {s i k} buf _ _.

(** Some state is at position [i] of the endless sequence [g] and will follow the rules for ever. *)
Definition goes_on {S T F E} (P : bulk_producer S T F E) (g : nat -> T) (s : S) (i : nat) : Prop :=
  exists R, endless_producer P g R /\ R s i 0.

(** A machine that takes the [n] items from position [i] on, from the state [a] to the state [a']. *)
Definition takes {A T F E} (M : machine A T F E) (g : nat -> T) (a : A) (i n : nat) (a' : A) : Prop :=
  m_feed M (stretch g i n) a = (a', n, None).

(** What a closure with captured variables makes of an endless sequence: the variables before item [i], and the mapped item. *)
Fixpoint closure_at {T U W} (f : W -> T -> W * U) (w : W) (g : nat -> T) (i : nat) : W :=
  match i with 0 => w | S i => fst (f (closure_at f w g i) (g i)) end.
Definition mapped_at {T U W} (f : W -> T -> W * U) (w : W) (g : nat -> T) (i : nat) : U := snd (f (closure_at f w g i) (g i)).

(** A producer without slices, or one of which only single items are wanted, that yields [v 0], [v 1], ... and never ends. *)
Definition yields_for_ever {S T F E} (P : buffered_producer S T F E) (v : nat -> T) (s : S) : Prop :=
  exists R : S -> nat -> Prop, R s 0 /\
    forall s j, R s j ->
      (exists s', p_produce P s = Ret (s', Ok (inl (v j))) /\ R s' (Datatypes.S j)) /\
      (exists s', p_slurp P s = Ret (s', Ok tt) /\ R s' j).

(** Readers that never report end-of-file or an error. *)
Definition endless_reader {S T} (Rd : reader S T) (g : nat -> T) (R : S -> nat -> Prop) : Prop :=
  forall s i buf, R s i -> buf <> [] ->
    exists s' n, r_read Rd buf s = Ret (s', (stretch g i n ++ skipn n buf, Ok n)) /\ 1 <= n <= length buf /\ R s' (i + n).

Record endless_buf_reader {S T} (Rd : buf_reader S T) (g : nat -> T) (R : S -> nat -> nat -> Prop) : Prop := {
  eb_weaken : forall s i k k', R s i k -> k' <= k -> R s i k';
  eb_read : forall s i k buf, R s i k -> buf <> [] ->
    exists s' n, r_read Rd buf s = Ret (s', (stretch g i n ++ skipn n buf, Ok n)) /\ 1 <= n <= length buf /\ R s' (i + n) (k - n);
  eb_fill_buf : forall s i k, R s i k ->
    exists s' n, r_fill_buf Rd s = Ret (s', Ok (stretch g i n)) /\ 1 <= n /\ k <= n /\ R s' i n;
  eb_consume : forall s i k n, R s i k -> n <= k -> exists s', r_consume Rd n s = Ret s' /\ R s' (i + n) (k - n)
}.
Arguments eb_weaken {S T Rd g R} _ {s i k} k' _ _.
Arguments eb_read {S T Rd g R} _ {s i k} buf _ _.
Arguments eb_fill_buf {S T Rd g R} _ {s i k} _.
Arguments eb_consume {S T Rd g R} _ {s i k} n _ _.

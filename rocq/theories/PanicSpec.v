(** Specification of adaptors and pipes around objects whose methods may panic. *)
From Coq Require Import Bool List Arith.
From Verif Require Import Prelude Traits Contracts CloneModel PanicModel.
Import ListNotations.
Set Implicit Arguments.

(** ** Producers *)

Inductive pcall : Type := PProduce | PSlurp | PExpose | PConsider (n : nat).
Inductive panswer (T F E : Type) : Type :=
| PItem (r : caught (res (T + F) E))
| PUnit (r : caught (res unit E))
| PSlice (r : caught (res (list T + F) E)).
Arguments PItem {T F E}. Arguments PUnit {T F E}. Arguments PSlice {T F E}.

Section RunProducer.
  Context {W S T F E : Type} (P : v_producer W S T F E).

  Definition p_call (o : pcall) (s : S) (w : W) : outcome (S * W * panswer T F E) :=
    match o with
    | PProduce => let* (s, w, r) := v_produce P s w in Ret (s, w, PItem r)
    | PSlurp => let* (s, w, r) := v_slurp P s w in Ret (s, w, PUnit r)
    | PExpose => let* (s, w, r) := v_expose P s w in Ret (s, w, PSlice r)
    | PConsider n => let* (s, w, r) := v_consider P n s w in Ret (s, w, PUnit r)
    end.

  (** A caller that makes these calls, and catches what panics. *)
  Fixpoint p_run (ops : list pcall) (s : S) (w : W) : outcome (S * W * list (panswer T F E)) :=
    match ops with
    | [] => Ret (s, w, [])
    | o :: ops =>
        let* (s, w, a) := p_call o s w in
        let* (s, w, rest) := p_run ops s w in
        Ret (s, w, a :: rest)
    end.
End RunProducer.

(** Is this the final value? An error, other than one of [consider_produced]? *)
Definition is_final {T F E} (a : panswer T F E) : bool :=
  match a with PItem (Done (Ok (inr _))) | PSlice (Done (Ok (inr _))) => true | _ => false end.
Definition is_end {T F E} (o : pcall) (a : panswer T F E) : bool :=
  match o, a with
  | PConsider _, _ => false
  | _, (PItem (Done (Err _)) | PSlice (Done (Err _)) | PUnit (Done (Err _))) => true
  | _, _ => is_final a
  end.
(** Did the call return? *)
Definition returned {T F E} (a : panswer T F E) : bool :=
  match a with PItem (Done _) | PSlice (Done _) | PUnit (Done _) => true | _ => false end.

(** The rules that Invariant enforces (producer/invariant.rs 17-24; errors of [consider_produced] are not noticed): nothing after the end,
    no more than is on display. *)
Fixpoint p_rules {T F E} (shown : nat) (ops : list pcall) (answers : list (panswer T F E)) : Prop :=
  match ops, answers with
  | o :: ops, a :: answers =>
      (match o with PConsider n => n <= shown | _ => True end) /\
      (is_end o a = true -> ops = []) /\
      p_rules match o, a with PConsider n, _ => shown - n | _, PSlice (Done (Ok (inl xs))) => length xs | _, _ => shown end ops answers
  | _, _ => True
  end.

(** Answers with another final value, or another error, or other items. *)
Definition over_final {X F B E} (g : F -> B) (r : res (X + F) E) : res (X + B) E :=
  match r with Ok (inl x) => Ok (inl x) | Ok (inr f) => Ok (inr (g f)) | Err e => Err e end.
Definition final_by {T F B E} (g : F -> B) (a : panswer T F E) : panswer T B E :=
  match a with PItem r => PItem (map_caught (over_final g) r) | PSlice r => PSlice (map_caught (over_final g) r) | PUnit r => PUnit r end.
Definition error_by {T F E B} (g : E -> B) (a : panswer T F E) : panswer T F B :=
  match a with
  | PItem r => PItem (map_caught (map_err g) r) | PSlice r => PSlice (map_caught (map_err g) r) | PUnit r => PUnit (map_caught (map_err g) r)
  end.
Definition item_by {T U F E} (f : T -> U) (a : panswer T F E) : panswer U F E :=
  match a with
  | PItem r => PItem (map_caught (fun r => match r with Ok (inl x) => Ok (inl (f x)) | Ok (inr y) => Ok (inr y) | Err e => Err e end) r)
  | PSlice r => PSlice (map_caught (fun r => match r with Ok (inl xs) => Ok (inl (map f xs)) | Ok (inr y) => Ok (inr y) | Err e => Err e end) r)
  | PUnit r => PUnit r
  end.
Definition of_producer (o : pcall) : Prop := o = PProduce \/ o = PSlurp.

Definition count {A} (p : A -> bool) (l : list A) : nat := length (filter p l).

(** What a call takes out of a limit. *)
Definition p_price (o : pcall) : nat := match o with PProduce => 1 | PConsider n => n | _ => 0 end.

(** Calls and answers outside, and inside, of a limit that starts at [n] and ends at [m]. *)
Inductive limited {T F E} : nat -> list pcall -> list (panswer T (option F) E) -> list pcall -> list (panswer T F E) -> nat -> Prop :=
| limited_nil : forall n, limited n [] [] [] [] n
| limited_produce_no_more : forall ops ans ops' ans' m, limited 0 ops ans ops' ans' m ->
    limited 0 (PProduce :: ops) (PItem (Done (Ok (inr None))) :: ans) ops' ans' m
| limited_expose_no_more : forall ops ans ops' ans' m, limited 0 ops ans ops' ans' m ->
    limited 0 (PExpose :: ops) (PSlice (Done (Ok (inr None))) :: ans) ops' ans' m
| limited_call : forall n o a a' ops ans ops' ans' m, p_price o <= n -> (o = PExpose -> n <> 0) ->
    a = match final_by Some a' with PSlice (Done (Ok (inl xs))) => PSlice (Done (Ok (inl (firstn n xs)))) | a => a end ->
    limited (n - p_price o) ops ans ops' ans' m ->
    limited n (o :: ops) (a :: ans) (o :: ops') (a' :: ans') m.

(** Items that came out in these calls, counting those that were considered produced. *)
Fixpoint taken {T F E} (ops : list pcall) (answers : list (panswer T F E)) : nat :=
  match ops, answers with
  | o :: ops, a :: answers =>
      match o, a with PProduce, PItem (Done (Ok (inl _))) => 1 | PConsider n, _ => n | _, _ => 0 end + taken ops answers
  | _, _ => 0
  end.
(** Calls of [produce] that panicked, and those that the inner producer answered otherwise than by an item. *)
Definition no_item {T F E} (a : panswer T (option F) E) : bool :=
  match a with PItem Unwound | PItem (Done (Err _)) | PItem (Done (Ok (inr (Some _)))) => true | _ => false end.

(** ** Consumers *)

Inductive ccall (T F : Type) : Type :=
| CConsume (x : T) | CClose (f : F) | CFlush | CExpose | CWrite (ys : list T) | CConsumeSlots (n : nat).
Arguments CConsume {T F}. Arguments CClose {T F}. Arguments CFlush {T F}. Arguments CExpose {T F}. Arguments CWrite {T F}.
Arguments CConsumeSlots {T F}.
Inductive canswer (E : Type) : Type := CUnit (r : caught (res unit E)) | CSlots (r : caught (res nat E)) | CWritten.
Arguments CUnit {E}. Arguments CSlots {E}. Arguments CWritten {E}.

Section RunConsumer.
  Context {W S T F E : Type} (C : v_consumer W S T F E).

  Definition c_call (o : ccall T F) (s : S) (w : W) : outcome (S * W * canswer E) :=
    match o with
    | CConsume x => let* (s, w, r) := v_consume C x s w in Ret (s, w, CUnit r)
    | CClose f => let* (s, w, r) := v_close C f s w in Ret (s, w, CUnit r)
    | CFlush => let* (s, w, r) := v_flush C s w in Ret (s, w, CUnit r)
    | CExpose => let* (s, w, r) := v_expose_slots C s w in Ret (s, w, CSlots r)
    | CWrite ys => Ret (v_write C ys s, w, CWritten)
    | CConsumeSlots n => let* (s, w, r) := v_consume_slots C n s w in Ret (s, w, CUnit r)
    end.

  Fixpoint c_run (ops : list (ccall T F)) (s : S) (w : W) : outcome (S * W * list (canswer E)) :=
    match ops with
    | [] => Ret (s, w, [])
    | o :: ops =>
        let* (s, w, a) := c_call o s w in
        let* (s, w, rest) := c_run ops s w in
        Ret (s, w, a :: rest)
    end.
End RunConsumer.

Definition is_write {T F} (o : ccall T F) : bool := match o with CWrite _ => true | _ => false end.

(** A consumer has ended when [close] was called, whatever came of it, and when a method other than [consume_slots] failed. *)
Definition c_is_end {T F E} (o : ccall T F) (a : canswer E) : bool :=
  match o, a with
  | CClose _, _ => true
  | CConsumeSlots _, _ => false
  | _, (CUnit (Done (Err _)) | CSlots (Done (Err _))) => true
  | _, _ => false
  end.
Definition c_returned {E} (a : canswer E) : bool := match a with CUnit (Done _) | CSlots (Done _) => true | _ => false end.

(** The rules of consumer/invariant.rs 13-20. Writing into slots is not a call. *)
Fixpoint c_rules {T F E} (slots : nat) (ops : list (ccall T F)) (answers : list (canswer E)) : Prop :=
  match ops, answers with
  | o :: ops, a :: answers =>
      (match o with CConsumeSlots n => n <= slots | _ => True end) /\
      (c_is_end o a = true -> forallb is_write ops = true) /\
      c_rules match o, a with CConsumeSlots n, _ => slots - n | _, CSlots (Done (Ok n)) => n | _, _ => slots end ops answers
  | _, _ => True
  end.

Definition is_close {T F} (o : ccall T F) : bool := match o with CClose _ => true | _ => false end.
Definition close_by {T F B} (g : B -> F) (o : ccall T B) : ccall T F :=
  match o with
  | CConsume x => CConsume x | CClose f => CClose (g f) | CFlush => CFlush | CExpose => CExpose | CWrite ys => CWrite ys
  | CConsumeSlots n => CConsumeSlots n
  end.
Definition give_by {T U F} (f : U -> T) (o : ccall U F) : ccall T F :=
  match o with
  | CConsume x => CConsume (f x) | CClose y => CClose y | CFlush => CFlush | CExpose => CExpose | CWrite ys => CWrite (map f ys)
  | CConsumeSlots n => CConsumeSlots n
  end.
Definition of_consumer {T F} (o : ccall T F) : Prop :=
  match o with CConsume _ | CClose _ | CFlush => True | _ => False end.
Definition c_error_by {E B} (g : E -> B) (a : canswer E) : canswer B :=
  match a with CUnit r => CUnit (map_caught (map_err g) r) | CSlots r => CSlots (map_caught (map_err g) r) | CWritten => CWritten end.

Definition c_price {T F} (o : ccall T F) : nat := match o with CConsume _ => 1 | CConsumeSlots n => n | _ => 0 end.

Inductive c_limited {T F E} : nat -> list (ccall T F) -> list (canswer (option E)) -> list (ccall T F) -> list (canswer E) -> nat -> Prop :=
| c_limited_nil : forall n, c_limited n [] [] [] [] n
| c_limited_consume_no_more : forall x ops ans ops' ans' m, c_limited 0 ops ans ops' ans' m ->
    c_limited 0 (CConsume x :: ops) (CUnit (Done (Err None)) :: ans) ops' ans' m
| c_limited_expose_no_more : forall ops ans ops' ans' m, c_limited 0 ops ans ops' ans' m ->
    c_limited 0 (CExpose :: ops) (CSlots (Done (Err None)) :: ans) ops' ans' m
| c_limited_call : forall n o a a' ops ans ops' ans' m, c_price o <= n -> (o = CExpose -> n <> 0) ->
    a = match c_error_by Some a' with CSlots (Done (Ok k)) => CSlots (Done (Ok (Nat.min n k))) | a => a end ->
    c_limited (n - c_price o) ops ans ops' ans' m ->
    c_limited n (o :: ops) (a :: ans) (o :: ops') (a' :: ans') m.

(** Items handed over, whatever the answer. *)
Definition handed {T F} (ops : list (ccall T F)) : nat := list_sum (map c_price ops).

(** ** Pipes *)

Inductive event (T F PE CE : Type) : Type :=
| Produced (r : caught (res (T + F) PE))
| Consumed (x : T) (r : caught (res unit CE))
| Closed (f : F) (r : caught (res unit CE)).
Arguments Produced {T F PE CE}. Arguments Consumed {T F PE CE}. Arguments Closed {T F PE CE}.

Section Events.
  Context {SP SC W T F PE CE : Type}
    (produce : SP -> W -> outcome (SP * W * caught (res (T + F) PE)))
    (consume : T -> SC -> W -> outcome (SC * W * caught (res unit CE)))
    (close : F -> SC -> W -> outcome (SC * W * caught (res unit CE))).

  (** These calls, one after the other, with these answers. *)
  Inductive happens : SP -> SC -> W -> list (event T F PE CE) -> SP -> SC -> W -> Prop :=
  | happens_nothing : forall sp sc w, happens sp sc w [] sp sc w
  | happens_produce : forall sp sc w sp1 w1 r es sp' sc' w', produce sp w = Ret (sp1, w1, r) ->
      happens sp1 sc w1 es sp' sc' w' -> happens sp sc w (Produced r :: es) sp' sc' w'
  | happens_consume : forall sp sc w x sc1 w1 r es sp' sc' w', consume x sc w = Ret (sc1, w1, r) ->
      happens sp sc1 w1 es sp' sc' w' -> happens sp sc w (Consumed x r :: es) sp' sc' w'
  | happens_close : forall sp sc w f sc1 w1 r es sp' sc' w', close f sc w = Ret (sc1, w1, r) ->
      happens sp sc1 w1 es sp' sc' w' -> happens sp sc w (Closed f r :: es) sp' sc' w'.
End Events.

(** The calls a pipe makes, and what it answers. *)
Inductive piping {T F PE CE} : list (event T F PE CE) -> caught (res unit (pipe_error PE CE)) -> Prop :=
| piping_item : forall x es r, piping es r -> piping (Produced (Done (Ok (inl x))) :: Consumed x (Done (Ok tt)) :: es) r
| piping_producer_panics : piping [Produced Unwound] Unwound
| piping_producer_fails : forall e, piping [Produced (Done (Err e))] (Done (Err (PipeProducer e)))
| piping_consumer_panics : forall x, piping [Produced (Done (Ok (inl x))); Consumed x Unwound] Unwound
| piping_consumer_fails : forall x e, piping [Produced (Done (Ok (inl x))); Consumed x (Done (Err e))] (Done (Err (PipeConsumer e)))
| piping_closed : forall f, piping [Produced (Done (Ok (inr f))); Closed f (Done (Ok tt))] (Done (Ok tt))
| piping_close_panics : forall f, piping [Produced (Done (Ok (inr f))); Closed f Unwound] Unwound
| piping_close_fails : forall f e, piping [Produced (Done (Ok (inr f))); Closed f (Done (Err e))] (Done (Err (PipeConsumer e))).

(** Called again after each panic, up to [n] times in all. *)
Inductive piping_again {T F PE CE} : nat -> list (event T F PE CE) -> caught (res unit (pipe_error PE CE)) -> Prop :=
| piping_given_up : piping_again 0 [] Unwound
| piping_finished : forall n es r, piping es (Done r) -> piping_again (Datatypes.S n) es (Done r)
| piping_once_more : forall n es es' r, piping es Unwound -> piping_again n es' r -> piping_again (Datatypes.S n) (es ++ es') r.

Definition emitted {T F PE CE} (es : list (event T F PE CE)) : list T :=
  flat_map (fun e => match e with Produced (Done (Ok (inl x))) => [x] | _ => [] end) es.
Definition given {T F PE CE} (es : list (event T F PE CE)) : list T :=
  flat_map (fun e => match e with Consumed x _ => [x] | _ => [] end) es.
Definition accepted {T F PE CE} (es : list (event T F PE CE)) : list T :=
  flat_map (fun e => match e with Consumed x (Done (Ok _)) => [x] | _ => [] end) es.
Definition finals {T F PE CE} (es : list (event T F PE CE)) : list F :=
  flat_map (fun e => match e with Produced (Done (Ok (inr f))) => [f] | _ => [] end) es.
Definition closings {T F PE CE} (es : list (event T F PE CE)) : list F :=
  flat_map (fun e => match e with Closed f _ => [f] | _ => [] end) es.
Definition panicked_event {T F PE CE} (e : event T F PE CE) : bool :=
  match e with Produced Unwound | Consumed _ Unwound | Closed _ Unwound => true | _ => false end.
Definition consumer_panicked {T F PE CE} (e : event T F PE CE) : bool := match e with Consumed _ Unwound => true | _ => false end.
Definition consumer_failed {T F PE CE} (e : event T F PE CE) : bool := match e with Consumed _ (Done (Err _)) => true | _ => false end.

(** *** In bulk *)

Inductive bevent (T F PE CE : Type) : Type :=
| BExposed (r : caught (res (list T + F) PE))
| BConsumed (xs : list T) (r : caught (res nat CE))
| BConsidered (n : nat) (r : caught (res unit PE))
| BClosed (f : F) (r : caught (res unit CE)).
Arguments BExposed {T F PE CE}. Arguments BConsumed {T F PE CE}. Arguments BConsidered {T F PE CE}. Arguments BClosed {T F PE CE}.

Section BulkEvents.
  Context {SP SC W T F PE CE : Type}
    (expose : SP -> W -> outcome (SP * W * caught (res (list T + F) PE)))
    (consider : nat -> SP -> W -> outcome (SP * W * caught (res unit PE)))
    (bulk_consume : list T -> SC -> W -> outcome (SC * W * caught (res nat CE)))
    (close : F -> SC -> W -> outcome (SC * W * caught (res unit CE))).

  Inductive bulk_happens : SP -> SC -> W -> list (bevent T F PE CE) -> SP -> SC -> W -> Prop :=
  | bulk_happens_nothing : forall sp sc w, bulk_happens sp sc w [] sp sc w
  | bulk_happens_expose : forall sp sc w sp1 w1 r es sp' sc' w', expose sp w = Ret (sp1, w1, r) ->
      bulk_happens sp1 sc w1 es sp' sc' w' -> bulk_happens sp sc w (BExposed r :: es) sp' sc' w'
  | bulk_happens_consume : forall sp sc w xs sc1 w1 r es sp' sc' w', bulk_consume xs sc w = Ret (sc1, w1, r) ->
      bulk_happens sp sc1 w1 es sp' sc' w' -> bulk_happens sp sc w (BConsumed xs r :: es) sp' sc' w'
  | bulk_happens_consider : forall sp sc w n sp1 w1 r es sp' sc' w', consider n sp w = Ret (sp1, w1, r) ->
      bulk_happens sp1 sc w1 es sp' sc' w' -> bulk_happens sp sc w (BConsidered n r :: es) sp' sc' w'
  | bulk_happens_close : forall sp sc w f sc1 w1 r es sp' sc' w', close f sc w = Ret (sc1, w1, r) ->
      bulk_happens sp sc1 w1 es sp' sc' w' -> bulk_happens sp sc w (BClosed f r :: es) sp' sc' w'.
End BulkEvents.

Inductive bulk_piping {T F PE CE} : list (bevent T F PE CE) -> caught (res unit (pipe_error PE CE)) -> Prop :=
| bulk_piping_items : forall xs n es r, bulk_piping es r ->
    bulk_piping (BExposed (Done (Ok (inl xs))) :: BConsumed xs (Done (Ok n)) :: BConsidered n (Done (Ok tt)) :: es) r
| bulk_piping_producer_panics : bulk_piping [BExposed Unwound] Unwound
| bulk_piping_producer_fails : forall e, bulk_piping [BExposed (Done (Err e))] (Done (Err (PipeProducer e)))
| bulk_piping_consumer_panics : forall xs, bulk_piping [BExposed (Done (Ok (inl xs))); BConsumed xs Unwound] Unwound
| bulk_piping_consumer_fails : forall xs e, bulk_piping [BExposed (Done (Ok (inl xs))); BConsumed xs (Done (Err e))] (Done (Err (PipeConsumer e)))
| bulk_piping_consider_panics : forall xs n,
    bulk_piping [BExposed (Done (Ok (inl xs))); BConsumed xs (Done (Ok n)); BConsidered n Unwound] Unwound
| bulk_piping_consider_fails : forall xs n e,
    bulk_piping [BExposed (Done (Ok (inl xs))); BConsumed xs (Done (Ok n)); BConsidered n (Done (Err e))] (Done (Err (PipeProducer e)))
| bulk_piping_closed : forall f, bulk_piping [BExposed (Done (Ok (inr f))); BClosed f (Done (Ok tt))] (Done (Ok tt))
| bulk_piping_close_panics : forall f, bulk_piping [BExposed (Done (Ok (inr f))); BClosed f Unwound] Unwound
| bulk_piping_close_fails : forall f e, bulk_piping [BExposed (Done (Ok (inr f))); BClosed f (Done (Err e))] (Done (Err (PipeConsumer e))).

(** Items the consumer said it had taken, and items the producer was told, and took note, had been taken. *)
Definition claimed {T F PE CE} (es : list (bevent T F PE CE)) : nat :=
  list_sum (map (fun e => match e with BConsumed _ (Done (Ok n)) => n | _ => 0 end) es).
Definition told {T F PE CE} (es : list (bevent T F PE CE)) : nat :=
  list_sum (map (fun e => match e with BConsidered n _ => n | _ => 0 end) es).
Definition noted {T F PE CE} (es : list (bevent T F PE CE)) : nat :=
  list_sum (map (fun e => match e with BConsidered n (Done (Ok _)) => n | _ => 0 end) es).

(** ** Two objects that answer alike *)
Definition p_same {W S T F E} (P Q : v_producer W S T F E) : Prop := forall o s w, p_call P o s w = p_call Q o s w.
Definition c_same {W S T F E} (C D : v_consumer W S T F E) : Prop := forall o s w, c_call C o s w = c_call D o s w.

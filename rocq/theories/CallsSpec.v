(** Exactly which calls functions and adaptors make, for arbitrary producers and consumers, judged from histories of calls and answers. *)
From Coq Require Import Bool List Arith.
From Coq.Init Require Import Byte.
From Verif Require Import Prelude Traits QueueModel AdaptorModel ScramblerModel TowerModel IoModel Contracts AdaptorSpec CodecModel EndianModel EndianSpec.
Import ListNotations.
Set Implicit Arguments.

(** ** Pipes *)
Section Pipes.
  Context {T F PE CE : Type}.
  Notation plog := (list (pop T * pans T F PE)).
  Notation clog := (list (cop T F * cans CE)).

  (** Items that were produced, and items that were consumed, one by one. *)
  Definition p_items (xs : list T) : plog := map (fun x => (PProduce, PAItem (Ok (inl x)))) xs.
  Definition c_items (xs : list T) : clog := map (fun x => (CConsume x, CAUnit (Ok tt))) xs.

  (** The calls of a pipe that ends with [r]: every item is passed on before the next one is produced, and nothing else is. *)
  Definition pipe_calls (r : res unit (pipe_error PE CE)) (lp : plog) (lc : clog) : Prop :=
    exists xs,
    match r with
    | Ok _ => exists f, lp = p_items xs ++ [(PProduce, PAItem (Ok (inr f)))] /\ lc = c_items xs ++ [(CClose f, CAUnit (Ok tt))]
    | Err (PipeProducer e) => lp = p_items xs ++ [(PProduce, PAItem (Err e))] /\ lc = c_items xs
    | Err (PipeConsumer e) =>
        (exists x, lp = p_items (xs ++ [x]) /\ lc = c_items xs ++ [(CConsume x, CAUnit (Err e))]) \/
        (exists f, lp = p_items xs ++ [(PProduce, PAItem (Ok (inr f)))] /\ lc = c_items xs ++ [(CClose f, CAUnit (Err e))])
    end.

  (** The same with a bound on the number of items. Once it is reached, there are no further calls. *)
  Definition pipe_at_most_calls (count : nat) (r : res nat (pipe_error PE CE)) (lp : plog) (lc : clog) : Prop :=
    match r with
    | Ok n => exists xs, n = length xs /\
        ((n = count /\ lp = p_items xs /\ lc = c_items xs) \/
         (n < count /\ exists f, lp = p_items xs ++ [(PProduce, PAItem (Ok (inr f)))] /\ lc = c_items xs ++ [(CClose f, CAUnit (Ok tt))]))
    | Err e => exists xs, length xs < count /\
        match e with
        | PipeProducer e => lp = p_items xs ++ [(PProduce, PAItem (Err e))] /\ lc = c_items xs
        | PipeConsumer e =>
            (exists x, lp = p_items (xs ++ [x]) /\ lc = c_items xs ++ [(CConsume x, CAUnit (Err e))]) \/
            (exists f, lp = p_items xs ++ [(PProduce, PAItem (Ok (inr f)))] /\ lc = c_items xs ++ [(CClose f, CAUnit (Err e))])
        end
    end.

  (** Rounds of the bulk versions: [ys] is exposed, [n] of these items are consumed and then marked as produced. *)
  Definition p_rounds (rs : list (list T * nat)) : plog :=
    flat_map (fun yn => [(PExpose, PASlice (Ok (inl (fst yn)))); (PConsider (snd yn), PAUnit (Ok tt))]) rs.
  (** What is offered to the consumer: at most [room] items altogether, everything if there is no bound. *)
  Definition offered (room : option nat) (ys : list T) : list T := match room with Some n => firstn n ys | None => ys end.
  Definition room_after (room : option nat) (n : nat) : option nat := option_map (fun r => r - n) room.
  Fixpoint c_rounds (room : option nat) (rs : list (list T * nat)) : clog :=
    match rs with
    | [] => []
    | (ys, n) :: rs => (CBulkConsume (offered room ys), CANat (Ok n)) :: c_rounds (room_after room n) rs
    end.
  (** There is room before every round. *)
  Fixpoint has_room (room : option nat) (rs : list (list T * nat)) : Prop :=
    match rs with
    | [] => True
    | (_, n) :: rs => room <> Some 0 /\ has_room (room_after room n) rs
    end.
  Definition moved (rs : list (list T * nat)) : nat := list_sum (map snd rs).

  (** The calls after the rounds [rs], and what they mean for the result. *)
  Inductive last_round : option nat -> res unit (pipe_error PE CE) -> plog -> clog -> Prop :=
  | last_full : last_round (Some 0) (Ok tt) [] []
  | last_final : forall room f r, room <> Some 0 ->
      last_round room (map_err PipeConsumer r) [(PExpose, PASlice (Ok (inr f)))] [(CClose f, CAUnit r)]
  | last_expose : forall room e, room <> Some 0 -> last_round room (Err (PipeProducer e)) [(PExpose, PASlice (Err e))] []
  | last_consume : forall room ys e, room <> Some 0 ->
      last_round room (Err (PipeConsumer e)) [(PExpose, PASlice (Ok (inl ys)))] [(CBulkConsume (offered room ys), CANat (Err e))]
  | last_consider : forall room ys n e, room <> Some 0 ->
      last_round room (Err (PipeProducer e)) [(PExpose, PASlice (Ok (inl ys))); (PConsider n, PAUnit (Err e))]
        [(CBulkConsume (offered room ys), CANat (Ok n))].

  Definition bulk_pipe_calls (room : option nat) (rs : list (list T * nat)) (r : res unit (pipe_error PE CE)) (lp : plog) (lc : clog) : Prop :=
    has_room room rs /\ exists lp' lc', last_round (room_after room (moved rs)) r lp' lc' /\ lp = p_rounds rs ++ lp' /\ lc = c_rounds room rs ++ lc'.
End Pipes.

(** ** Slices *)
Section Slices.
  Context {T F E : Type}.
  Notation plog := (list (pop T * pans T F E)).
  Notation clog := (list (cop T F * cans E)).

  Definition consume_slice_calls (buf : list T) (r : res unit (consume_at_least_error E)) (l : clog) : Prop :=
    match r with
    | Ok _ => l = c_items buf
    | Err (mk_cale i e) => exists x rest, skipn i buf = x :: rest /\ l = c_items (firstn i buf) ++ [(CConsume x, CAUnit (Err e))]
    end.

  (** [ns] are the numbers of items that were consumed in each round. *)
  Fixpoint slice_rounds (buf : list T) (ns : list nat) : clog :=
    match ns with
    | [] => []
    | n :: ns => (CBulkConsume buf, CANat (Ok n)) :: slice_rounds (skipn n buf) ns
    end.
  Fixpoint never_empty (len : nat) (ns : list nat) : Prop :=
    match ns with
    | [] => True
    | n :: ns => 0 < len /\ never_empty (len - n) ns
    end.
  Definition bulk_consume_slice_calls (buf : list T) (r : res unit (consume_at_least_error E)) (l : clog) : Prop :=
    exists ns, never_empty (length buf) ns /\
    match r with
    | Ok _ => length buf <= list_sum ns /\ l = slice_rounds buf ns
    | Err (mk_cale i e) => i = list_sum ns /\ i < length buf /\ l = slice_rounds buf ns ++ [(CBulkConsume (skipn i buf), CANat (Err e))]
    end.

  Definition report {X} (reason : F + E) : res (X + F) E := match reason with inl f => Ok (inr f) | inr e => Err e end.
  Definition overwrite_slice_calls (buf buf' : list T) (r : res unit (produce_at_least_error F E)) (l : plog) : Prop :=
    exists xs, buf' = xs ++ skipn (length xs) buf /\
    match r with
    | Ok _ => length xs = length buf /\ l = p_items xs
    | Err (mk_pale i reason) => i = length xs /\ i < length buf /\ l = p_items xs ++ [(PProduce, PAItem (report reason))]
    end.

  (** Rounds of [bulk_overwrite_full_slice]: each overwrites the part of the slice from [i] on with [rest] and reports [n] items. *)
  Fixpoint overwrite_rounds (buf : list T) (i : nat) (rs : list (list T * nat)) : plog :=
    match rs with
    | [] => []
    | (rest, n) :: rs => (PBulkProduce (skipn i buf), PABuf rest (Ok (inl n))) :: overwrite_rounds (firstn i buf ++ rest) (i + n) rs
    end.
  Fixpoint overwritten (buf : list T) (i : nat) (rs : list (list T * nat)) : list T :=
    match rs with
    | [] => buf
    | (rest, n) :: rs => overwritten (firstn i buf ++ rest) (i + n) rs
    end.
  Fixpoint never_full (buf : list T) (i : nat) (rs : list (list T * nat)) : Prop :=
    match rs with
    | [] => True
    | (rest, n) :: rs => i < length buf /\ never_full (firstn i buf ++ rest) (i + n) rs
    end.
  Definition bulk_overwrite_slice_calls (buf buf' : list T) (r : res unit (produce_at_least_error F E)) (l : plog) : Prop :=
    exists rs, let i := moved rs in let b := overwritten buf 0 rs in never_full buf 0 rs /\
    match r with
    | Ok _ => length b <= i /\ buf' = b /\ l = overwrite_rounds buf 0 rs
    | Err (mk_pale j reason) => exists rest, j = i /\ i < length b /\ buf' = firstn i b ++ rest /\
        l = overwrite_rounds buf 0 rs ++ [(PBulkProduce (skipn i b), PABuf rest (report reason))]
    end.
End Slices.

(** ** Towers *)

(** The object in the middle. *)
Fixpoint ct_base {S F E G B} (t : ctower F E G B) : ct_state S t -> S :=
  match t with
  | CTBase => fun s => s
  | CTLimit _ t => fun s => ct_base t (lim_inner s)
  | CTMapFinal _ t => fun s => ct_base t (wf_inner s)
  | CTInvariant t => fun s => ct_base t (inv_inner s)
  end.
(** The error of the outermost limit that is used up, if there is one. *)
Fixpoint ct_blocked {S F E G B} (t : ctower F E G B) : ct_state S t -> option B :=
  match t with
  | CTBase => fun _ => None
  | CTLimit _ t => fun s => if lim_remaining s =? 0 then Some None else option_map Some (ct_blocked t (lim_inner s))
  | CTMapFinal _ t => fun s => ct_blocked t (wf_inner s)
  | CTInvariant t => fun s => ct_blocked t (inv_inner s)
  end.
(** Errors of the object in the middle, final values for it, and how many slots are left of those it exposes. *)
Fixpoint ct_error {F E G B} (t : ctower F E G B) : E -> B :=
  match t with
  | CTBase => fun e => e
  | CTLimit _ t => fun e => Some (ct_error t e)
  | CTMapFinal _ t => ct_error t
  | CTInvariant t => ct_error t
  end.
Fixpoint ct_final {S F E G B} (t : ctower F E G B) : ct_state S t -> G -> option F :=
  match t with
  | CTBase => fun _ f => Some f
  | CTLimit _ t => fun s => ct_final t (lim_inner s)
  | CTMapFinal _ t => fun s f => match wf_fun s with Some g => ct_final t (wf_inner s) (g f) | None => None end
  | CTInvariant t => fun s => ct_final t (inv_inner s)
  end.
Fixpoint ct_room {S F E G B} (t : ctower F E G B) : ct_state S t -> nat -> nat :=
  match t with
  | CTBase => fun _ n => n
  | CTLimit _ t => fun s n => Nat.min (lim_remaining s) (ct_room t (lim_inner s) n)
  | CTMapFinal _ t => fun s => ct_room t (wf_inner s)
  | CTInvariant t => fun s => ct_room t (inv_inner s)
  end.
Definition map_ok {X Y E} (f : X -> Y) (r : res X E) : res Y E := match r with Ok x => Ok (f x) | Err e => Err e end.

(** One call of a tower: which calls it makes in the middle ([l]), and what it answers ([a]). *)
Definition ct_call {S T F E G B} (t : ctower F E G B) (s : ct_state S t) (o : cop T G) (l : list (cop T F * cans E)) (a : cans B) : Prop :=
  match o with
  | CConsume x =>
      match ct_blocked t s with
      | Some b => l = [] /\ a = CAUnit (Err b)
      | None => exists r, l = [(CConsume x, CAUnit r)] /\ a = CAUnit (map_err (ct_error t) r)
      end
  | CClose g => exists f r, ct_final t s g = Some f /\ l = [(CClose f, CAUnit r)] /\ a = CAUnit (map_err (ct_error t) r)
  | CFlush => exists r, l = [(CFlush, CAUnit r)] /\ a = CAUnit (map_err (ct_error t) r)
  | CExpose =>
      match ct_blocked t s with
      | Some b => l = [] /\ a = CASlots (Err b)
      | None => exists r, l = [(CExpose, CASlots r)] /\ a = CASlots (map_ok (ct_room t s) (map_err (ct_error t) r))
      end
  | CWrite ys => l = [(CWrite ys, CANone)] /\ a = CANone
  | CConsumeSlots n => exists r, l = [(CConsumeSlots n, CAUnit r)] /\ a = CAUnit (map_err (ct_error t) r)
  | CBulkConsume buf =>
      (* not in the middle: [expose_slots] and [consume_slots] *)
      match ct_blocked t s with
      | Some b => l = [] /\ a = CANat (Err b)
      | None =>
          (exists e, l = [(CExpose, CASlots (Err e))] /\ a = CANat (Err (ct_error t e))) \/
          (exists n r, let k := Nat.min (ct_room t s n) (length buf) in
             l = [(CExpose, CASlots (Ok n)); (CWrite (firstn k buf), CANone); (CConsumeSlots k, CAUnit r)] /\
             a = CANat (map_ok (fun _ => k) (map_err (ct_error t) r)))
      end
  end.
Definition bare_consumer {F E G B} (t : ctower F E G B) : Prop := match t with CTBase => True | _ => False end.

(** The same for producers, without scramblers. *)
Fixpoint unscrambled {T F E G} (t : ptower T F E G) : Prop :=
  match t with
  | PTBase => True
  | PTLimit _ t => unscrambled t
  | PTMapFinal _ t => unscrambled t
  | PTInvariant t => unscrambled t
  | PTScramble _ _ _ _ _ _ => False
  end.
Fixpoint pt_base {S T F E G} (t : ptower T F E G) : pt_state S t -> S :=
  match t with
  | PTBase => fun s => s
  | PTLimit _ t => fun s => pt_base t (lim_inner s)
  | PTMapFinal _ t => fun s => pt_base t (wf_inner s)
  | PTInvariant t => fun s => pt_base t (inv_inner s)
  | PTScramble _ _ _ _ _ t => fun s => pt_base t (ps_inner s)
  end.
(** Is some limit used up? *)
Fixpoint pt_blocked {S T F E G} (t : ptower T F E G) : pt_state S t -> bool :=
  match t with
  | PTBase => fun _ => false
  | PTLimit _ t => fun s => (lim_remaining s =? 0) || pt_blocked t (lim_inner s)
  | PTMapFinal _ t => fun s => pt_blocked t (wf_inner s)
  | PTInvariant t => fun s => pt_blocked t (inv_inner s)
  | PTScramble _ _ _ _ _ t => fun s => pt_blocked t (ps_inner s)
  end.
(** The final value if the object in the middle has ended with [o], or has not been asked because some limit is used up. *)
Fixpoint pt_final {S T F E G} (t : ptower T F E G) : pt_state S t -> option F -> option G :=
  match t with
  | PTBase => fun _ o => o
  | PTLimit _ t => fun s o => if lim_remaining s =? 0 then Some None else option_map Some (pt_final t (lim_inner s) o)
  | PTMapFinal _ t => fun s o => match wf_fun s, pt_final t (wf_inner s) o with Some g, Some x => Some (g x) | _, _ => None end
  | PTInvariant t => fun s => pt_final t (inv_inner s)
  | PTScramble _ _ _ _ _ t => fun s => pt_final t (ps_inner s)
  end.
Fixpoint pt_shown {S T F E G} (t : ptower T F E G) : pt_state S t -> list T -> list T :=
  match t with
  | PTBase => fun _ xs => xs
  | PTLimit _ t => fun s xs => firstn (lim_remaining s) (pt_shown t (lim_inner s) xs)
  | PTMapFinal _ t => fun s => pt_shown t (wf_inner s)
  | PTInvariant t => fun s => pt_shown t (inv_inner s)
  | PTScramble _ _ _ _ _ t => fun s => pt_shown t (ps_inner s)
  end.
(** An answer of the object in the middle, seen from outside. *)
Definition pt_answer {S T F E G X Y} (t : ptower T F E G) (s : pt_state S t) (show : X -> Y) (r : res (X + F) E) (r' : res (Y + G) E) : Prop :=
  match r with
  | Ok (inl x) => r' = Ok (inl (show x))
  | Ok (inr f) => exists g, pt_final t s (Some f) = Some g /\ r' = Ok (inr g)
  | Err e => r' = Err e
  end.
Definition pt_call {S T F E G} (t : ptower T F E G) (s : pt_state S t) (o : pop T) (l : list (pop T * pans T F E)) (a : pans T G E) : Prop :=
  match o with
  | PProduce =>
      if pt_blocked t s then l = [] /\ exists g, pt_final t s None = Some g /\ a = PAItem (Ok (inr g))
      else exists r r', l = [(PProduce, PAItem r)] /\ a = PAItem r' /\ pt_answer t s (fun x => x) r r'
  | PSlurp => exists r, l = [(PSlurp, PAUnit r)] /\ a = PAUnit r
  | PExpose =>
      if pt_blocked t s then l = [] /\ exists g, pt_final t s None = Some g /\ a = PASlice (Ok (inr g))
      else exists r r', l = [(PExpose, PASlice r)] /\ a = PASlice r' /\ pt_answer t s (pt_shown t s) r r'
  | PConsider n => exists r, l = [(PConsider n, PAUnit r)] /\ a = PAUnit r
  | PBulkProduce buf =>
      if pt_blocked t s then l = [] /\ exists g, pt_final t s None = Some g /\ a = PABuf buf (Ok (inr g))
      else
        (exists f g, l = [(PExpose, PASlice (Ok (inr f)))] /\ pt_final t s (Some f) = Some g /\ a = PABuf buf (Ok (inr g))) \/
        (exists e, l = [(PExpose, PASlice (Err e))] /\ a = PABuf buf (Err e)) \/
        (exists xs r, let k := Nat.min (length (pt_shown t s xs)) (length buf) in
           l = [(PExpose, PASlice (Ok (inl xs))); (PConsider k, PAUnit r)] /\
           a = PABuf (firstn k xs ++ skipn k buf) (map_ok (fun _ => inl k) r))
  end.
Definition bare_producer {T F E G} (t : ptower T F E G) : Prop := match t with PTBase => True | _ => False end.

(** ** The queues of readers and writers *)

(** Calls that do not ask for a slice of the queue. *)
Definition p_direct {T} (o : pop T) : Prop := match o with PProduce | PSlurp | PBulkProduce _ => True | _ => False end.
Definition c_direct {T F} (o : cop T F) : Prop := match o with CConsume _ | CClose _ | CFlush | CBulkConsume _ => True | _ => False end.
(** Looking for items in an empty queue does not change it. *)
Definition empty_unchanged {Q T} (I : queue Q T) : Prop :=
  forall q, q_len I q = 0 -> q_dequeue I q = Ret (q, None) /\ q_expose_items I q = Ret (q, None).

(** One [bulk_produce] is one [read] into the caller's buffer, and one [bulk_consume] one [write] of the caller's items. *)
Definition one_read {S Q T} (Rd : reader S T) (st st' : reader_state S Q) (buf buf' : list T) (r : res (nat + unit) io_error) : Prop :=
  exists r0, r_read Rd buf (rs_reader st) = Ret (rs_reader st', (buf', r0)) /\
  match r0 with
  | Ok 0 => r = Ok (inr tt)
  | Ok n => r = Ok (inl n)
  | Err e => r = Err e
  end.
Definition one_write {S Q T} (W : writer S T) (st st' : writer_state S Q) (buf : list T) (r : res nat io_error) : Prop :=
  exists r0, w_write W buf (ws_writer st) = Ret (ws_writer st', r0) /\
  match r0 with
  | Ok 0 => exists e, kind e = WriteZero /\ r = Err e
  | Ok n => r = Ok n
  | Err e => r = Err e
  end.

(** ** The calls of readers *)

(** A call of a reader, with its answer: [read] with the contents of the buffer before and after, [fill_buf], and [consume]. *)
Inductive rcall (T : Type) : Type :=
| RcRead (buf buf' : list T) (r : res nat io_error)
| RcFill (r : res (list T) io_error)
| RcConsume (n : nat).
Arguments RcRead {T} buf buf' r.
Arguments RcFill {T} r.
Arguments RcConsume {T} n.

Inductive br_makes {S T} (Rd : buf_reader S T) : S -> list (rcall T) -> S -> Prop :=
| br_makes_nil : forall s, br_makes Rd s [] s
| br_makes_read : forall buf s s1 b r l s', r_read Rd buf s = Ret (s1, (b, r)) -> br_makes Rd s1 l s' -> br_makes Rd s (RcRead buf b r :: l) s'
| br_makes_fill : forall s s1 r l s', r_fill_buf Rd s = Ret (s1, r) -> br_makes Rd s1 l s' -> br_makes Rd s (RcFill r :: l) s'
| br_makes_consume : forall n s s1 l s', r_consume Rd n s = Ret s1 -> br_makes Rd s1 l s' -> br_makes Rd s (RcConsume n :: l) s'.

(** The same for readers that only have [read]: buffers before and after, and answers. *)
Inductive r_makes {S T} (Rd : reader S T) : S -> list (list T * list T * res nat io_error) -> S -> Prop :=
| r_makes_nil : forall s, r_makes Rd s [] s
| r_makes_read : forall buf s s1 b r l s', r_read Rd buf s = Ret (s1, (b, r)) -> r_makes Rd s1 l s' -> r_makes Rd s ((buf, b, r) :: l) s'.

(** [read] gets a slice, whose length it cannot change, and does not claim to have read more than that. *)
Definition reads_in_place {S T} (Rd : reader S T) : Prop :=
  forall buf s s' b r, r_read Rd buf s = Ret (s', (b, r)) -> length b = length buf /\ forall n, r = Ok n -> n <= length buf.

(** What is made of the answer to a [read] of a single item, and to one into the caller's buffer. *)
Definition read_item {T} (b : list T) (r : res nat io_error) (a : pans T unit io_error) : Prop :=
  match r with
  | Ok 0 => a = PAItem (Ok (inr tt))
  | Ok _ => exists x, b = [x] /\ a = PAItem (Ok (inl x))
  | Err e => a = PAItem (match kind e with UnexpectedEof => Ok (inr tt) | _ => Err e end)
  end.
Definition read_items (r : res nat io_error) : res (nat + unit) io_error :=
  match r with Ok 0 => Ok (inr tt) | Ok n => Ok (inl n) | Err e => Err e end.

(** [BufReaderToBulkProducer]: which calls it makes, and what it answers. *)
Definition br_call {T} (x0 : T) (o : pop T) (l : list (rcall T)) (a : pans T unit io_error) : Prop :=
  match o with
  | PProduce => exists b r, l = [RcRead [x0] b r] /\ read_item b r a
  | PSlurp => exists r, l = [RcFill r] /\ a = PAUnit (map_ok (fun _ => tt) r)
  | PExpose =>
      (exists e, l = [RcFill (Err e)] /\ a = PASlice (Err e)) \/
      (l = [RcFill (Ok [])] /\ a = PASlice (Ok (inr tt))) \/
      (exists y ys r, l = [RcFill (Ok (y :: ys)); RcFill r] /\ a = PASlice (map_ok inl r))
  | PConsider n => l = [RcConsume n] /\ a = PAUnit (Ok tt)
  | PBulkProduce buf => exists b r, l = [RcRead buf b r] /\ a = PABuf b (read_items r)
  end.

(** [ReaderToBulkProducer], whose queue has room for [c] items and contains [items], and afterwards [items']. Nothing is
    read while there are items in the queue. *)
Definition rd_call {T} (x0 : T) (c : nat) (items : list T) (o : pop T) (l : list (list T * list T * res nat io_error))
    (a : pans T unit io_error) (items' : list T) : Prop :=
  match items, o with
  | x :: rest, PProduce => l = [] /\ a = PAItem (Ok (inl x)) /\ items' = rest
  | [], PProduce => items' = [] /\ exists b r, l = [([x0], b, r)] /\ read_item b r a
  | _, PSlurp => l = [] /\ a = PAUnit (Ok tt) /\ items' = items
  | _ :: _, PExpose => l = [] /\ items' = items /\ exists ys rest, ys <> [] /\ items = ys ++ rest /\ a = PASlice (Ok (inl ys))
  | [], PExpose => exists n b r, 1 <= n <= c /\ l = [(repeat x0 n, b, r)] /\
      match r with
      | Err e => items' = [] /\ a = PASlice (Err e)
      | Ok 0 => items' = [] /\ a = PASlice (Ok (inr tt))
      | Ok m => items' = firstn m b /\ exists ys rest, ys <> [] /\ items' = ys ++ rest /\ a = PASlice (Ok (inl ys))
      end
  | _, PConsider n => l = [] /\ a = PAUnit (Ok tt) /\ items' = skipn n items
  | _ :: _, PBulkProduce buf => l = [] /\ exists n, n <= length buf /\ n <= length items /\ (n = 0 <-> buf = []) /\
      a = PABuf (firstn n items ++ skipn n buf) (Ok (inl n)) /\ items' = skipn n items
  | [], PBulkProduce buf => items' = [] /\ exists b r, l = [(buf, b, r)] /\ a = PABuf b (read_items r)
  end.

(** ** The calls of writers *)

(** A call of a writer, with its answer. *)
Inductive wcall (T : Type) : Type :=
| WcWrite (buf : list T) (r : res nat io_error)
| WcFlush (r : res unit io_error)
| WcClose (r : res unit io_error).
Arguments WcWrite {T} buf r.
Arguments WcFlush {T} r.
Arguments WcClose {T} r.

Inductive w_makes {S T} (W : writer S T) : S -> list (wcall T) -> S -> Prop :=
| w_makes_nil : forall s, w_makes W s [] s
| w_makes_write : forall buf s s1 r l s', w_write W buf s = Ret (s1, r) -> w_makes W s1 l s' -> w_makes W s (WcWrite buf r :: l) s'
| w_makes_flush : forall s s1 r l s', w_flush W s = Ret (s1, r) -> w_makes W s1 l s' -> w_makes W s (WcFlush r :: l) s'
| w_makes_close : forall s s1 r l s', w_close W s = Ret (s1, r) -> w_makes W s1 l s' -> w_makes W s (WcClose r :: l) s'.

(** Writing all of [buf], bit by bit. Every call offers all that is left. *)
Inductive wc_all {T} : list T -> list (wcall T) -> res unit io_error -> Prop :=
| wc_all_done : wc_all [] [] (Ok tt)
| wc_all_some : forall buf n l r, 1 <= n <= length buf -> wc_all (skipn n buf) l r -> wc_all buf (WcWrite buf (Ok n) :: l) r
| wc_all_none : forall buf e, buf <> [] -> kind e = WriteZero -> wc_all buf [WcWrite buf (Ok 0)] (Err e)
| wc_all_err : forall buf e, buf <> [] -> wc_all buf [WcWrite buf (Err e)] (Err e).

(** Writing the contents of the queue, in one piece or several. A piece of which not all was written stays in the queue as a whole. *)
Inductive wc_drain {T} : list T -> list (wcall T) -> res unit io_error -> list T -> Prop :=
| wc_drain_done : wc_drain [] [] (Ok tt) []
| wc_drain_piece : forall ys rest l l' r items', ys <> [] -> wc_all ys l (Ok tt) -> wc_drain rest l' r items' -> wc_drain (ys ++ rest) (l ++ l') r items'
| wc_drain_err : forall ys rest l e, ys <> [] -> wc_all ys l (Err e) -> wc_drain (ys ++ rest) l (Err e) (ys ++ rest).

(** What is made of the answer to a [write] of the caller's items. *)
Definition wrote_items (r0 r : res nat io_error) : Prop :=
  match r0 with
  | Ok 0 => exists e, kind e = WriteZero /\ r = Err e
  | _ => r = r0
  end.

(** [WriterToBulkConsumer], whose queue has room for [c] items and contains [items], and afterwards [items'], with [w] written
    to the slots that are on display, and afterwards [w']. Except for [consume_slots], all calls write the contents of the queue
    before anything else. *)
Definition wr_call {T} (c : nat) (items w : list T) (o : cop T unit) (l : list (wcall T)) (a : cans io_error) (items' w' : list T) : Prop :=
  let first (fail : io_error -> cans io_error) (then_ : list (wcall T) -> Prop) :=
    exists l1 r, wc_drain items l1 r items' /\
    match r with
    | Err e => l = l1 /\ a = fail e
    | Ok tt => exists l2, l = l1 ++ l2 /\ then_ l2
    end in
  match o with
  | CConsume x => first (fun e => CAUnit (Err e)) (fun l2 => exists r, wc_all [x] l2 r /\ a = CAUnit r)
  | CClose _ => first (fun e => CAUnit (Err e)) (fun l2 => exists r, l2 = [WcClose r] /\ a = CAUnit r)
  | CFlush => first (fun e => CAUnit (Err e)) (fun l2 => exists r, l2 = [WcFlush r] /\ a = CAUnit r)
  | CExpose => first (fun e => CASlots (Err e)) (fun l2 => exists n, l2 = [] /\ 1 <= n <= c /\ w' = [] /\ a = CASlots (Ok n))
  | CWrite ys => l = [] /\ a = CANone /\ items' = items /\ w' = overlay ys w
  | CConsumeSlots n => l = [] /\ a = CAUnit (Ok tt) /\ items' = items ++ firstn n w /\ w' = skipn n w
  | CBulkConsume buf => first (fun e => CANat (Err e)) (fun l2 => exists r0 r, l2 = [WcWrite buf r0] /\ wrote_items r0 r /\ a = CANat r)
  end.

(** ** The calls of encoders and decoders for numbers *)

(** [consume]: the encoding of the number, as a slice. *)
Definition encoder_call {F E} (n : wrapper) (v : num (wrapped n)) (l : list (cop byte F * cans E)) (r : res unit E) : Prop :=
  exists bs r0, encodes n v bs /\ bulk_consume_slice_calls bs r0 l /\
  r = match r0 with Ok _ => Ok tt | Err (mk_cale _ e) => Err e end.

(** [produce]: one look at whether there are items, then a slice of the right length. *)
Definition decoder_call {F E O} (n : wrapper) (l : list (pop byte * pans byte F E)) (r : res (num (wrapped n) + F) (decode_error F E O)) : Prop :=
  (exists f, l = [(PExpose, PASlice (Ok (inr f)))] /\ r = Ok (inr f)) \/
  (exists e, l = [(PExpose, PASlice (Err e))] /\ r = Err (Producer e)) \/
  (exists ys l' bs r0, l = (PExpose, PASlice (Ok (inl ys))) :: l' /\ bulk_overwrite_slice_calls (repeat x00 (width n)) bs r0 l' /\
     match r0 with
     | Ok _ => exists v, r = Ok (inl v) /\ (length bs = width n -> encodes n v bs)
     | Err (mk_pale _ (inl f)) => r = Err (UnexpectedEndOfInput f)
     | Err (mk_pale _ (inr e)) => r = Err (Producer e)
     end).

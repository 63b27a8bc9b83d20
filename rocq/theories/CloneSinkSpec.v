(** Specification of the consumer scrambler for items with an arbitrary [Clone], against that of buffering consumers. *)
From Coq Require Import Bool List Arith.
From Verif Require Import Prelude Traits Contracts BufferedSpec CloneModel CloneSpec ScramblerModel CloneScramblerSpec CloneSinkModel.
Import ListNotations.
Set Implicit Arguments.

(** Calls, with panics of [clone] caught. *)
Definition t_do {W S T F E} (clone : T -> W -> W * option T) (dbg : bool) (fuel : nat) (C : bulk_consumer S T F E) (o : cop T F)
    (s : cscr S T) (w : W) : outcome (cscr S T * W * caught (cans E)) :=
  let unit_of x := let* (s, w, r) := x in Ret (s, w, match r with Done r => Done (CAUnit r) | Unwound => Unwound end) in
  match o with
  | CConsume x => unit_of (cscr_consume_cloning clone dbg fuel C x s w)
  | CClose f => unit_of (cscr_close_cloning clone dbg fuel C f s w)
  | CFlush => unit_of (cscr_flush_cloning clone dbg fuel C s w)
  | CExpose =>
      let* (s, w, r) := cscr_expose_cloning clone dbg fuel C s w in
      Ret (s, w, match r with Done r => Done (CASlots r) | Unwound => Unwound end)
  | CWrite ys => Ret (cscr_write ys s, w, Done CANone)
  | CConsumeSlots n => let* (s, r) := cscr_consume_slots n s in Ret (s, w, Done (CAUnit r))
  | CBulkConsume buf =>
      let* (s, w, r) := cscr_bulk_consume_cloning clone dbg fuel C buf s w in
      Ret (s, w, match r with Done r => Done (CANat r) | Unwound => Unwound end)
  end.

Section Answers.
  Context {W A T F E : Type} (clone : T -> W -> W * option T) (M : machine A T F E) (cap : nat).

  (** Of the items [pend] withheld, clones of some are forwarded, and [q] stay. *)
  Definition passes (a : A) (pend : list T) (w : W) (q : list T) (a' : A) (w' : W) : Prop :=
    exists out ys, pend = out ++ q /\ clones clone out w ys w' /\ m_forwards M a ys a'.

  (** The same, and then a [clone] panics: in bulk, whereupon nothing more happens, or of a single item, which is lost. *)
  Definition unwinds (a : A) (pend : list T) (w : W) (pend' : list T) (a' : A) (w' : W) : Prop :=
    exists q w1, passes a pend w q a' w1 /\
      ((exists n ys, breaks clone (firstn n q) w1 ys w' /\ pend' = q) \/
       (exists x, q = x :: pend' /\ clone x w1 = (w', None))).

  (** The same, and then the inner consumer raises an error: when flushed, or for any item, or for one of the clones. *)
  Definition balks (a : A) (pend : list T) (w : W) (e : E) (a' : A) (w' : W) : Prop :=
    exists q a1 w1, passes a pend w q a1 w1 /\ q <> [] /\
      ((m_flush M a1 = (a', Err e) /\ w' = w1) \/
       ((forall y, m_step M y a1 = (a', Err e)) /\ w' = w1) \/
       (exists n ys, clones clone (firstn n q) w1 ys w' /\ m_refuses M a1 ys e a')).

  (** Forwarding everything, but only if there is no room. *)
  Definition makes_room (a : A) (pend : list T) (w : W) (q : list T) (a' : A) (w' : W) : Prop :=
    (length pend < cap /\ q = pend /\ a' = a /\ w' = w) \/
    (length pend = cap /\ q = [] /\ passes a pend w [] a' w').

  Definition t_answer (b : babs A T) (w : W) (o : cop T F) (r : caught (cans E)) (b' : babs A T) (w' : W) : Prop :=
    match b with
    | BEnded _ => False
    | BActive a pend k v =>
        let refused e := exists a', balks a pend w e a' w' /\ b' = BEnded a' in
        let unwound := exists pend' a', unwinds a pend w pend' a' w' /\ b' = BActive a' pend' 0 [] in
        match o, r with
        | CConsume x, Done (CAUnit (Ok _)) => exists q a', makes_room a pend w q a' w' /\ b' = BActive a' (q ++ [x]) 0 []
        | CClose f, Done (CAUnit r) =>
            (exists a1, passes a pend w [] a1 w' /\ r = snd (m_finish M f a1) /\ b' = BEnded (fst (m_finish M f a1))) \/
            (exists e, r = Err e /\ refused e)
        | CFlush, Done (CAUnit (Ok _)) => exists a1 a', passes a pend w [] a1 w' /\ m_flush M a1 = (a', Ok tt) /\ b' = BActive a' [] k v
        | CFlush, Done (CAUnit (Err e)) => refused e \/
            (exists a1 a', passes a pend w [] a1 w' /\ m_flush M a1 = (a', Err e) /\ b' = BEnded a')
        | CExpose, Done (CASlots (Ok n)) => exists q a',
            makes_room a pend w q a' w' /\ 1 <= n /\ length q + n <= cap /\ b' = BActive a' q n []
        | CWrite ys, Done CANone => w' = w /\ b' = BActive a pend k (overlay ys v)
        | CConsumeSlots n, Done (CAUnit (Ok _)) => w' = w /\ length pend + n <= cap /\ b' = BActive a (pend ++ firstn n v) (k - n) (skipn n v)
        | CBulkConsume buf, Done (CANat (Ok n)) => exists q a' w1 ys,
            makes_room a pend w q a' w1 /\ 1 <= n <= length buf /\ clones clone (firstn n buf) w1 ys w' /\ length q + n <= cap /\
            b' = BActive a' (q ++ ys) 0 []
        | CBulkConsume buf, Unwound => unwound \/
            (exists n q a' w1 ys, makes_room a pend w q a' w1 /\ n <= length buf /\ breaks clone (firstn n buf) w1 ys w' /\ b' = BActive a' q 0 [])
        | CConsume _, Done (CAUnit (Err e)) | CExpose, Done (CASlots (Err e)) | CBulkConsume _, Done (CANat (Err e)) => refused e
        | (CConsume _ | CExpose), Unwound => length pend = cap /\ unwound
        | (CClose _ | CFlush), Unwound => unwound
        | _, _ => False
        end
    end.

  Context {S : Type} (dbg : bool) (fuel : nat) (C : bulk_consumer S T F E).

  Inductive t_conforms : list (cop T F) -> cscr S T -> W -> babs A T -> Prop :=
  | t_conforms_nil : forall s w b, t_conforms [] s w b
  | t_conforms_broken : forall o ops s w b, ~ b_permitted b o -> t_conforms (o :: ops) s w b
  | t_conforms_step : forall o ops s w b s' w' r b', b_permitted b o -> t_do clone dbg fuel C o s w = Ret (s', w', r) ->
      t_answer b w o r b' w' -> t_conforms ops s' w' b' -> t_conforms (o :: ops) s w b.

  Inductive t_history : cscr S T -> W -> babs A T -> list (cop T F * caught (cans E)) -> cscr S T -> W -> babs A T -> Prop :=
  | t_history_nil : forall s w b, t_history s w b [] s w b
  | t_history_step : forall s w b o s1 w1 r b1 h s2 w2 b2, b_permitted b o -> t_do clone dbg fuel C o s w = Ret (s1, w1, r) ->
      t_answer b w o r b1 w1 -> t_history s1 w1 b1 h s2 w2 b2 -> t_history s w b ((o, r) :: h) s2 w2 b2.
End Answers.

(** The items that the caller handed over successfully, if [v] was written to the slots on offer. *)
Fixpoint t_given {T F E} (v : list T) (h : list (cop T F * caught (cans E))) : list T :=
  match h with
  | [] => []
  | (CConsume x, Done (CAUnit (Ok _))) :: h => x :: t_given [] h
  | (CFlush, Done (CAUnit (Ok _))) :: h => t_given v h
  | (CWrite ys, _) :: h => t_given (overlay ys v) h
  | (CConsumeSlots n, _) :: h => firstn n v ++ t_given (skipn n v) h
  | (CBulkConsume buf, Done (CANat (Ok n))) :: h => firstn n buf ++ t_given [] h
  | _ :: h => t_given [] h
  end.

(** How many calls were cut short by a panic. *)
Definition t_torn {T F E} (h : list (cop T F * caught (cans E))) : nat :=
  length (filter (fun e => match snd e with Unwound => true | _ => false end) h).

(** How a consumer in the state [a1] came to its end in the state [a']: closed with nothing left, or an error. *)
Definition t_end {A T F E} (M : machine A T F E) (rest : list T) (a1 a' : A) : Prop :=
  (rest = [] /\ exists f, a' = fst (m_finish M f a1)) \/
  (exists e, m_flush M a1 = (a', Err e) \/ exists y, m_step M y a1 = (a', Err e)).

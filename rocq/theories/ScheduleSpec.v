(** Which calls the scramblers make, and when: the operations that they were given, in turn, judged from histories of calls and answers. *)
From Coq Require Import Bool List Arith.
From Verif Require Import Prelude Traits ScramblerModel Contracts AdaptorSpec.
Import ListNotations.
Set Implicit Arguments.

Definition next {X} (ops : list X) (i : nat) : nat := (i + 1) mod length ops.

(** ** Producer *)

(** The operations that are performed: if none of the given ones can move an item, then [produce] comes after them. *)
Definition all_producer_ops (ops : list pscr_op) : list pscr_op :=
  if forallb (fun o => match o with ScSlurp => true | _ => false end) ops then ops ++ [ScProduce] else ops.

(** The items that were read ahead, the end of the inner sequence if it was seen and not yet reported, and which operation comes next. *)
Record pview (T F E : Type) : Type := mk_pview { pv_items : list T; pv_last : option (res F E); pv_next : nat }.

Section Producer.
  Context {T F E : Type}.
  Notation plog := (list (pop T * pans T F E)).
  Definition stopped {X} (l : res F E) : res (X + F) E := match l with Ok f => Ok (inr f) | Err e => Err e end.

  Section Operations.
    Variables (ops : list pscr_op) (cap : nat).

    (** Reading ahead from [b], where the operation at index [i] is next, until there are [cap] items, or the inner producer ends or
        fails: the calls, and what there is afterwards. *)
    Inductive filled : list T -> nat -> plog -> pview T F E -> Prop :=
    | filled_full : forall b i, length b = cap -> filled b i [] (mk_pview b None i)
    | filled_item : forall b i x l v, length b < cap -> nth_error ops i = Some ScProduce ->
        filled (b ++ [x]) (next ops i) l v -> filled b i ((PProduce, PAItem (Ok (inl x))) :: l) v
    | filled_item_last : forall b i r, length b < cap -> nth_error ops i = Some ScProduce ->
        filled b i [(PProduce, PAItem (stopped r))] (mk_pview b (Some r) i)
    | filled_items : forall b i n ys m l v, length b < cap -> nth_error ops i = Some (ScConsiderProduced n) ->
        m <= n -> m <= length ys -> length b + m <= cap -> (m = 0 -> n = 0 \/ ys = []) ->
        filled (b ++ firstn m ys) (next ops i) l v ->
        filled b i ((PExpose, PASlice (Ok (inl ys))) :: (PConsider m, PAUnit (Ok tt)) :: l) v
    | filled_items_error : forall b i n ys m e, length b < cap -> nth_error ops i = Some (ScConsiderProduced n) ->
        m <= n -> m <= length ys -> length b + m <= cap -> (m = 0 -> n = 0 \/ ys = []) ->
        filled b i [(PExpose, PASlice (Ok (inl ys))); (PConsider m, PAUnit (Err e))] (mk_pview (b ++ firstn m ys) (Some (Err e)) i)
    | filled_items_last : forall b i n r, length b < cap -> nth_error ops i = Some (ScConsiderProduced n) ->
        filled b i [(PExpose, PASlice (stopped r))] (mk_pview b (Some r) i)
    | filled_slurp : forall b i l v, length b < cap -> nth_error ops i = Some ScSlurp ->
        filled b (next ops i) l v -> filled b i ((PSlurp, PAUnit (Ok tt)) :: l) v
    | filled_slurp_error : forall b i e, length b < cap -> nth_error ops i = Some ScSlurp ->
        filled b i [(PSlurp, PAUnit (Err e))] (mk_pview b (Some (Err e)) i).

    (** Nothing is read after the end. *)
    Definition fills (v : pview T F E) (l : plog) (v' : pview T F E) : Prop :=
      match pv_last v with
      | None => filled (pv_items v) (pv_next v) l v'
      | Some _ => l = [] /\ v' = v
      end.

    (** The end is reported when there are no items left. *)
    Definition reports (w : pview T F E) (r : res F E) (v' : pview T F E) : Prop := pv_last w = Some r /\ v' = mk_pview [] None (pv_next w).
    Definition keeps (b : list T) (w : pview T F E) : pview T F E := mk_pview b (pv_last w) (pv_next w).

    (** One call of the scrambler: which calls it makes inside ([l]), what it answers ([a]), and what there is afterwards. *)
    Definition pscr_call (v : pview T F E) (o : pop T) (l : plog) (a : pans T F E) (v' : pview T F E) : Prop :=
      match o with
      | PProduce => exists w, fills v l w /\
          match pv_items w with
          | [] => exists r, reports w r v' /\ a = PAItem (stopped r)
          | x :: b => a = PAItem (Ok (inl x)) /\ v' = keeps b w
          end
      | PSlurp => exists w l1 l2, l = l1 ++ l2 /\ fills v l1 w /\
          match pv_items w, pv_last w with
          | [], Some (Err e) => l2 = [] /\ a = PAUnit (Err e) /\ v' = mk_pview [] None (pv_next w)
          | b, _ => exists r, l2 = [(PSlurp, PAUnit r)] /\
              match r, b with
              | Ok _, _ => a = PAUnit (Ok tt) /\ v' = w
              | Err e, [] => a = PAUnit (Err e) /\ v' = w
              | Err e, _ => a = PAUnit (Ok tt) /\ v' = mk_pview b (Some (Err e)) (pv_next w)
              end
          end
      | PExpose => exists w, fills v l w /\
          match pv_items w with
          | [] => exists r, reports w r v' /\ a = PASlice (stopped r)
          | b => exists ys rest, ys <> [] /\ b = ys ++ rest /\ a = PASlice (Ok (inl ys)) /\ v' = w
          end
      | PConsider n => l = [] /\ n <= length (pv_items v) /\ a = PAUnit (Ok tt) /\ v' = keeps (skipn n (pv_items v)) v
      | PBulkProduce buf => exists w, fills v l w /\
          match pv_items w with
          | [] => exists r, reports w r v' /\ a = PABuf buf (stopped r)
          | b => exists m, m <= length buf /\ m <= length b /\ (m = 0 -> buf = []) /\
              a = PABuf (firstn m b ++ skipn m buf) (Ok (inl m)) /\ v' = keeps (skipn m b) w
          end
      end.

    (** Any number of calls. *)
    Inductive pscr_calls : pview T F E -> plog -> plog -> pview T F E -> Prop :=
    | pscr_calls_nil : forall v, pscr_calls v [] [] v
    | pscr_calls_step : forall v o l a v1 h l' v', pscr_call v o l a v1 -> pscr_calls v1 h l' v' -> pscr_calls v ((o, a) :: h) (l ++ l') v'.
  End Operations.
End Producer.

(** ** Consumer *)
Definition all_consumer_ops (ops : list cscr_op) : list cscr_op :=
  if forallb (fun o => match o with ScFlush => true | _ => false end) ops then ops ++ [ScConsume] else ops.

(** The items that were taken and not passed on yet, and which operation comes next. *)
Record cview (T : Type) : Type := mk_cview { cv_items : list T; cv_next : nat }.

Section Consumer.
  Context {T F E : Type}.
  Notation clog := (list (cop T F * cans E)).

  Section Operations.
    Variables (ops : list cscr_op) (cap : nat).

    (** Passing on the items [b], where the operation at index [i] is next, until there are none left or the inner consumer fails. *)
    Inductive drained : list T -> nat -> clog -> res unit E -> cview T -> Prop :=
    | drained_done : forall i, drained [] i [] (Ok tt) (mk_cview [] i)
    | drained_item : forall x b i l r v, nth_error ops i = Some ScConsume ->
        drained b (next ops i) l r v -> drained (x :: b) i ((CConsume x, CAUnit (Ok tt)) :: l) r v
    | drained_item_error : forall x b i e, nth_error ops i = Some ScConsume ->
        drained (x :: b) i [(CConsume x, CAUnit (Err e))] (Err e) (mk_cview b i)
    | drained_slots : forall b i n k m l r v, b <> [] -> nth_error ops i = Some (ScConsumeSlots n) ->
        m <= n -> m <= k -> m <= length b -> (m = 0 -> n = 0 \/ k = 0) ->
        drained (skipn m b) (next ops i) l r v ->
        drained b i ((CExpose, CASlots (Ok k)) :: (CWrite (firstn m b), CANone) :: (CConsumeSlots m, CAUnit (Ok tt)) :: l) r v
    | drained_slots_error : forall b i n k m e, b <> [] -> nth_error ops i = Some (ScConsumeSlots n) ->
        m <= n -> m <= k -> m <= length b -> (m = 0 -> n = 0 \/ k = 0) ->
        drained b i [(CExpose, CASlots (Ok k)); (CWrite (firstn m b), CANone); (CConsumeSlots m, CAUnit (Err e))] (Err e) (mk_cview (skipn m b) i)
    | drained_expose_error : forall b i n e, b <> [] -> nth_error ops i = Some (ScConsumeSlots n) ->
        drained b i [(CExpose, CASlots (Err e))] (Err e) (mk_cview b i)
    | drained_flush : forall b i l r v, b <> [] -> nth_error ops i = Some ScFlush ->
        drained b (next ops i) l r v -> drained b i ((CFlush, CAUnit (Ok tt)) :: l) r v
    | drained_flush_error : forall b i e, b <> [] -> nth_error ops i = Some ScFlush ->
        drained b i [(CFlush, CAUnit (Err e))] (Err e) (mk_cview b i).

    (** Items are passed on only when there is no room for another one. *)
    Definition makes_room (v : cview T) (l : clog) (r : res unit E) (v' : cview T) : Prop :=
      if length (cv_items v) <? cap then l = [] /\ r = Ok tt /\ v' = v else drained (cv_items v) (cv_next v) l r v'.
    Definition holds (b : list T) (v : cview T) : cview T := mk_cview b (cv_next v).

    (** One call of the scrambler; [w] is what the caller has written into the slots. *)
    Definition cscr_call (w : list T) (v : cview T) (o : cop T F) (l : clog) (a : cans E) (v' : cview T) : Prop :=
      match o with
      | CConsume x => exists r u, makes_room v l r u /\ a = CAUnit r /\
          v' = match r with Ok _ => holds (cv_items u ++ [x]) u | Err _ => u end
      | CClose f => exists l1 l2 r, l = l1 ++ l2 /\ drained (cv_items v) (cv_next v) l1 r v' /\
          match r with
          | Ok _ => exists r', l2 = [(CClose f, CAUnit r')] /\ a = CAUnit r'
          | Err e => l2 = [] /\ a = CAUnit (Err e)
          end
      | CFlush => exists l1 l2 r, l = l1 ++ l2 /\ drained (cv_items v) (cv_next v) l1 r v' /\
          match r with
          | Ok _ => exists r', l2 = [(CFlush, CAUnit r')] /\ a = CAUnit r'
          | Err e => l2 = [] /\ a = CAUnit (Err e)
          end
      | CExpose => exists r, makes_room v l r v' /\
          match r with
          | Ok _ => exists k, 1 <= k /\ length (cv_items v') + k <= cap /\ a = CASlots (Ok k)
          | Err e => a = CASlots (Err e)
          end
      | CWrite _ => l = [] /\ a = CANone /\ v' = v
      | CConsumeSlots n => l = [] /\ a = CAUnit (Ok tt) /\ v' = holds (cv_items v ++ firstn n w) v
      | CBulkConsume buf => exists r u, makes_room v l r u /\
          match r with
          | Ok _ => exists m, m <= length buf /\ length (cv_items u) + m <= cap /\ (m = 0 -> buf = []) /\
              a = CANat (Ok m) /\ v' = holds (cv_items u ++ firstn m buf) u
          | Err e => a = CANat (Err e) /\ v' = u
          end
      end.

    (** What the caller may rely on after a call: how many slots there are, and what is written into the first of them. *)
    Definition slots_after (kw : nat * list T) (o : cop T F) (a : cans E) : nat * list T :=
      match o, a with
      | CExpose, CASlots (Ok n) => (n, [])
      | CWrite ys, _ => (fst kw, overlay ys (snd kw))
      | CConsumeSlots n, _ => (fst kw - n, skipn n (snd kw))
      | CFlush, _ => kw
      | _, _ => (0, [])
      end.
    Fixpoint writes_first (kw : nat * list T) (h : clog) : Prop :=
      match h with
      | [] => True
      | (o, a) :: h =>
          match o with
          | CWrite ys => length ys <= fst kw
          | CConsumeSlots n => n <= length (snd kw)
          | _ => True
          end /\ writes_first (slots_after kw o a) h
      end.

    Inductive cscr_calls : nat * list T -> cview T -> clog -> clog -> cview T -> Prop :=
    | cscr_calls_nil : forall kw v, cscr_calls kw v [] [] v
    | cscr_calls_step : forall kw v o l a v1 h l' v', cscr_call (snd kw) v o l a v1 -> cscr_calls (slots_after kw o a) v1 h l' v' ->
        cscr_calls kw v ((o, a) :: h) (l ++ l') v'.
  End Operations.
End Consumer.

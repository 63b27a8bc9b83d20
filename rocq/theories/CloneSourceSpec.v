(** Specification of producers that clone their items, with or without a limit. *)
From Coq Require Import Bool List Arith.
From Verif Require Import Prelude Traits Contracts CloneModel CloneSpec CloneScramblerSpec.
Import ListNotations.
Set Implicit Arguments.

Definition g_do {W S T F E} (clone : T -> W -> W * option T) (produce : S -> W -> outcome (S * W * caught (res (T + F) E)))
    (P : bulk_producer S T F E) (o : sop T) (s : S) (w : W) : outcome (S * W * sans T F E) :=
  match o with
  | SProduce => let* (s, w, r) := produce s w in Ret (s, w, SAItem r)
  | SExpose => let* (s, r) := p_expose P s in Ret (s, w, SASlice (Done r))
  | SConsider n => let* (s, r) := p_consider P n s in Ret (s, w, SAUnit r)
  | SBulkProduce buf => let* (s, w, (buf, r)) := bulk_produce_cloning clone P buf s w in Ret (s, w, SABuf buf r)
  end.

(** Items still to come, how many of them at most (if there is a limit), and items on display. *)
Inductive gabs (T : Type) : Type :=
| GAt (xs : list T) (lim : option nat) (shown : nat)
| GEnded (xs : list T).

Definition g_permitted {T} (a : gabs T) (o : sop T) : Prop :=
  match a, o with
  | GEnded _, _ => False
  | GAt _ _ k, SConsider n => 1 <= k /\ n <= k
  | GAt _ _ _, SBulkProduce buf => buf <> []
  | GAt _ _ _, _ => True
  end.

Definition fits (n : nat) (lim : option nat) : Prop := match lim with Some m => n <= m | None => True end.
Definition less (lim : option nat) (n : nat) : option nat := match lim with Some m => Some (m - n) | None => None end.

Section Answers.
  Context {W T F E : Type} (clone : T -> W -> W * option T) (stop last : res F E).

  (** [stop]: the answer when the limit is reached, [last]: that when there are no more items. A [produce] whose [clone]
      panics uses up one of the limit, but no item; a [bulk_produce] whose [clone] panics uses up neither. *)
  Definition g_answer (a : gabs T) (w : W) (o : sop T) (r : sans T F E) (a' : gabs T) (w' : W) : Prop :=
    match a with
    | GEnded _ => False
    | GAt xs lim k =>
        let over X (r : res (X + F) E) := w' = w /\ a' = GEnded xs /\
          ((lim = Some 0 /\ says_end stop r) \/ (fits 1 lim /\ xs = [] /\ says_end last r)) in
        match o, r with
        | SProduce, SAItem (Done r) =>
            (exists x y xs', xs = x :: xs' /\ fits 1 lim /\ r = Ok (inl y) /\ ((y = x /\ w' = w) \/ clone x w = (w', Some y)) /\
               a' = GAt xs' (less lim 1) (k - 1)) \/ over _ r
        | SProduce, SAItem Unwound => exists x xs', xs = x :: xs' /\ fits 1 lim /\ clone x w = (w', None) /\ a' = GAt xs (less lim 1) 0
        | SExpose, SASlice (Done r) =>
            (exists zs rest, xs = zs ++ rest /\ zs <> [] /\ fits (length zs) lim /\ r = Ok (inl zs) /\ w' = w /\
               a' = GAt xs lim (length zs)) \/ over _ r
        | SConsider n, SAUnit r => r = Ok tt /\ w' = w /\ a' = GAt (skipn n xs) (less lim n) (k - n)
        | SBulkProduce buf, SABuf buf' (Done r) =>
            (exists n ys, r = Ok (inl n) /\ 1 <= n <= length buf /\ n <= length xs /\ fits n lim /\ clones clone (firstn n xs) w ys w' /\
               buf' = ys ++ skipn n buf /\ a' = GAt (skipn n xs) (less lim n) 0) \/ (over _ r /\ buf' = buf)
        | SBulkProduce buf, SABuf buf' Unwound =>
            exists n ys, n <= length buf /\ fits n lim /\ breaks clone (firstn n xs) w ys w' /\ buf' = ys ++ skipn (length ys) buf /\
              a' = GAt xs lim 0
        | _, _ => False
        end
    end.

  Context {S : Type} (produce : S -> W -> outcome (S * W * caught (res (T + F) E))) (P : bulk_producer S T F E).

  Inductive g_conforms : list (sop T) -> S -> W -> gabs T -> Prop :=
  | g_conforms_nil : forall s w a, g_conforms [] s w a
  | g_conforms_broken : forall o ops s w a, ~ g_permitted a o -> g_conforms (o :: ops) s w a
  | g_conforms_step : forall o ops s w a s' w' r a', g_permitted a o -> g_do clone produce P o s w = Ret (s', w', r) ->
      g_answer a w o r a' w' -> g_conforms ops s' w' a' -> g_conforms (o :: ops) s w a.

  Inductive g_history : S -> W -> gabs T -> list (sop T * sans T F E) -> S -> W -> gabs T -> Prop :=
  | g_history_nil : forall s w a, g_history s w a [] s w a
  | g_history_step : forall s w a o s1 w1 r a1 h s2 w2 a2, g_permitted a o -> g_do clone produce P o s w = Ret (s1, w1, r) ->
      g_answer a w o r a1 w1 -> g_history s1 w1 a1 h s2 w2 a2 -> g_history s w a ((o, r) :: h) s2 w2 a2.
End Answers.

(** A pipe from such a producer, called again after each panic, up to a number of times: items still to come, the consumer and
    the world, before and after, and how it ended. *)
Section Pipe.
  Context {W T A F E : Type} (clone : T -> W -> W * option T) (M : machine A T F E).

  Inductive piped : nat -> list T -> A -> W -> list T -> A -> W -> stopped E -> Prop :=
  | piped_given_up : forall xs a w, piped 0 xs a w xs a w Panicked
  | piped_all : forall n a w, piped (S n) [] a w [] a w AllTaken
  | piped_item : forall n x y xs a a1 w w1 rest a' w' r, (y = x /\ w1 = w) \/ clone x w = (w1, Some y) -> m_step M y a = (a1, Ok tt) ->
      piped (S n) xs a1 w1 rest a' w' r -> piped (S n) (x :: xs) a w rest a' w' r
  | piped_refused : forall n x y xs a a1 w w1 e, (y = x /\ w1 = w) \/ clone x w = (w1, Some y) -> m_step M y a = (a1, Err e) ->
      piped (S n) (x :: xs) a w xs a1 w1 (Refused e)
  | piped_panicked : forall n x xs a w w1 rest a' w' r, clone x w = (w1, None) -> piped n (x :: xs) a w1 rest a' w' r ->
      piped (S n) (x :: xs) a w rest a' w' r.
End Pipe.

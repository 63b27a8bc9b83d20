(** List and arithmetic facts used by the proofs. *)
From Coq Require Import Bool List Arith Lia.
From Verif Require Import Prelude.
Import ListNotations.
Set Implicit Arguments.

Lemma bind_ret : forall (A B : Type) (a : A) (k : A -> outcome B), bind (Ret a) k = k a.
Proof. reflexivity. Qed.

Lemma csub_ok : forall a b, b <= a -> csub a b = Ret (a - b).
Proof. intros. unfold csub. destruct (Nat.ltb_spec a b); [lia|reflexivity]. Qed.

Lemma csub_panic : forall a b, a < b -> csub a b = Panic.
Proof. intros. unfold csub. destruct (Nat.ltb_spec a b); [reflexivity|lia]. Qed.

Lemma cmod_ok : forall a b, 0 < b -> cmod a b = Ret (a mod b).
Proof. intros a [|b] H; [lia|reflexivity]. Qed.

Ltac splits := repeat match goal with |- _ /\ _ => split end.

Section L.
  Context {T : Type}.
  Implicit Types l w ys : list T.

  Lemma slice_ok : forall lo hi l,
    lo <= hi -> hi <= length l -> slice lo hi l = Ret (firstn (hi - lo) (skipn lo l)).
  Proof.
    intros. unfold slice.
    destruct (Nat.ltb_spec hi lo); [lia|].
    destruct (Nat.ltb_spec (length l) hi); [lia|reflexivity].
  Qed.

  Lemma slice_from_ok : forall lo l, lo <= length l -> slice_from lo l = Ret (skipn lo l).
  Proof. intros. unfold slice_from. destruct (Nat.ltb_spec (length l) lo); [lia|reflexivity]. Qed.

  Lemma slice_to_ok : forall hi l, hi <= length l -> slice_to hi l = Ret (firstn hi l).
  Proof. intros. unfold slice_to. destruct (Nat.ltb_spec (length l) hi); [lia|reflexivity]. Qed.

  Lemma index_set_ok : forall i x l, i < length l -> index_set i x l = Ret (blit i [x] l).
  Proof. intros. unfold index_set. destruct (Nat.ltb_spec i (length l)); [reflexivity|lia]. Qed.

  Lemma nth_error_blit : forall i ys l j,
    i + length ys <= length l ->
    nth_error (blit i ys l) j =
      if (i <=? j) && (j <? i + length ys) then nth_error ys (j - i) else nth_error l j.
  Proof.
    intros i ys l j H. unfold blit.
    destruct (Nat.leb_spec i j); cbn.
    - rewrite nth_error_app2 by (rewrite firstn_length; lia).
      rewrite firstn_length, Nat.min_l by lia.
      destruct (Nat.ltb_spec j (i + length ys)).
      + rewrite nth_error_app1 by lia. reflexivity.
      + rewrite nth_error_app2 by lia.
        clear - H H0 H1.
        rewrite <- (firstn_skipn (i + length ys) l) at 2.
        rewrite nth_error_app2 by (rewrite firstn_length; lia).
        rewrite firstn_length, Nat.min_l by lia. f_equal. lia.
    - rewrite nth_error_app1 by (rewrite firstn_length; lia).
      rewrite <- (firstn_skipn i l) at 2.
      rewrite nth_error_app1 by (rewrite firstn_length; lia). reflexivity.
  Qed.

  Lemma length_blit : forall i ys l,
    i + length ys <= length l -> length (blit i ys l) = length l.
  Proof.
    intros. unfold blit. rewrite !app_length, firstn_length, skipn_length. lia.
  Qed.

  Lemma nth_error_skipn : forall n l i, nth_error (skipn n l) i = nth_error l (n + i).
  Proof.
    induction n; intros; cbn; [reflexivity|].
    destruct l; cbn; [now destruct i|apply IHn].
  Qed.

  Lemma nth_error_firstn : forall n l i, i < n -> nth_error (firstn n l) i = nth_error l i.
  Proof.
    induction n; intros; [lia|].
    destruct l; cbn; [now destruct i|].
    destruct i; cbn; [reflexivity|]. apply IHn. lia.
  Qed.

  Lemma nth_error_firstn_ge : forall n l i, n <= i -> nth_error (firstn n l) i = None.
  Proof. intros. apply nth_error_None. rewrite firstn_length. lia. Qed.

  Lemma list_ext : forall l1 l2,
    (forall i, nth_error l1 i = nth_error l2 i) -> l1 = l2.
  Proof.
    induction l1; intros l2 H.
    - destruct l2; [reflexivity|]. specialize (H 0). discriminate.
    - destruct l2 as [|b l2]; [specialize (H 0); discriminate|].
      pose proof (H 0) as H0. cbn in H0. inversion H0; subst. f_equal.
      apply IHl1. intros i. apply (H (S i)).
  Qed.

  Lemma skipn_skipn : forall n m l, skipn n (skipn m l) = skipn (m + n) l.
  Proof.
    intros. apply list_ext. intros. rewrite !nth_error_skipn. f_equal. lia.
  Qed.

  Lemma firstn_app_skipn : forall n m l,
    firstn n l ++ firstn m (skipn n l) = firstn (n + m) l.
  Proof.
    induction n; intros; cbn; [reflexivity|].
    destruct l; cbn; [now rewrite firstn_nil|]. f_equal. apply IHn.
  Qed.

  Lemma length_overlay : forall ys w, length ys <= length (overlay ys w).
  Proof. intros. unfold overlay. rewrite app_length. lia. Qed.

  Lemma length_overlay_max : forall ys w, length (overlay ys w) = Nat.max (length ys) (length w).
  Proof. intros. unfold overlay. rewrite app_length, skipn_length. lia. Qed.

  Lemma overlay_nil : forall ys, overlay ys [] = ys.
  Proof. intros. unfold overlay. rewrite skipn_nil, app_nil_r. reflexivity. Qed.

  Lemma firstn_overlay : forall ys w n, n <= length ys -> firstn n (overlay ys w) = firstn n ys.
  Proof.
    intros. unfold overlay. rewrite firstn_app.
    replace (n - length ys) with 0 by lia. cbn. apply app_nil_r.
  Qed.

  Lemma firstn_nonempty : forall n l, 0 < n -> l <> [] -> firstn n l <> [].
  Proof. intros [|n] [|x l] Hn Hl; cbn; congruence || lia. Qed.

  Lemma skipn_firstn_split : forall n l, exists r, l = firstn n l ++ r /\ r = skipn n l.
  Proof. intros. exists (skipn n l). split; [now rewrite firstn_skipn|reflexivity]. Qed.

  Lemma firstn_le_all : forall n l, length l <= n -> firstn n l = l.
  Proof. intros. now apply firstn_all2. Qed.

End L.

Lemma mod_add_lt : forall a b c, 0 < c -> a < c -> b <= c ->
  (a + b) mod c = if a + b <? c then a + b else a + b - c.
Proof.
  intros a b c Hc Ha Hb. destruct (Nat.ltb_spec (a + b) c).
  - now apply Nat.mod_small.
  - replace (a + b) with ((a + b - c) + 1 * c) at 1 by lia.
    rewrite Nat.mod_add by lia.
    destruct (Nat.eq_dec (a + b - c) c) as [E|E]; [lia|].
    apply Nat.mod_small. lia.
Qed.

Lemma mod_inj : forall c r i j, 0 < c -> i < c -> j < c ->
  (r + i) mod c = (r + j) mod c -> i = j.
Proof.
  intros c r i j Hc Hi Hj H.
  rewrite (Nat.add_mod r i c), (Nat.add_mod r j c) in H by lia.
  rewrite (Nat.mod_small i c), (Nat.mod_small j c) in H by lia.
  pose proof (Nat.mod_upper_bound r c ltac:(lia)).
  rewrite !mod_add_lt in H by lia.
  destruct (Nat.ltb_spec (r mod c + i) c), (Nat.ltb_spec (r mod c + j) c); lia.
Qed.

(** [Forall2]-free "same prefix" facts. *)
Definition prefix {T} (p l : list T) : Prop := exists r, l = p ++ r.

Lemma prefix_firstn : forall T n (l : list T), prefix (firstn n l) l.
Proof. intros. exists (skipn n l). now rewrite firstn_skipn. Qed.

Lemma prefix_nil : forall T (l : list T), prefix [] l.
Proof. intros. now exists l. Qed.

Lemma prefix_app : forall T (p l r : list T), prefix p l -> prefix p (l ++ r).
Proof. intros T p l r [q ->]. exists (q ++ r). now rewrite app_assoc. Qed.

Lemma prefix_eq_firstn : forall T (p l : list T), prefix p l -> p = firstn (length p) l.
Proof.
  intros T p l [q ->]. rewrite firstn_app, firstn_all.
  replace (length p - length p) with 0 by lia. cbn. now rewrite app_nil_r.
Qed.

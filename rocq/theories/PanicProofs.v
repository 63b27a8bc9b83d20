(** Proofs for PropPanic.v. *)
From Coq Require Import Bool List Arith Lia.
From Verif Require Import Prelude Traits Contracts BasicModel AdaptorModel CloneModel CloneSourceModel ClosureModel PanicModel PanicSpec.
Import ListNotations.
Set Implicit Arguments.

Ltac step_bind := match goal with
  | H : bind ?x _ = Ret _ |- _ => let E := fresh "Ec" in destruct x as [[[? ?] ?]| |] eqn:E; cbn [bind] in H; try discriminate H
  end.

Lemma slice_min {T} n (x : list T) : slice_to (Nat.min n (length x)) x = Ret (firstn n x).
Proof.
  unfold slice_to. replace (length x <? Nat.min n (length x)) with false by (symmetry; apply Nat.ltb_ge; lia). f_equal.
  destruct (Nat.le_ge_cases n (length x)) as [Hl|Hl].
  - rewrite Nat.min_l by lia. reflexivity.
  - rewrite Nat.min_r by lia. rewrite !firstn_all2 by lia. reflexivity.
Qed.

Section Producers.
  Context {W S T F E : Type} (P : v_producer W S T F E).

  Lemma p_run_cons o ops s w :
    p_run P (o :: ops) s w = let* (s, w, a) := p_call P o s w in let* (s, w, rest) := p_run P ops s w in Ret (s, w, a :: rest).
  Proof. reflexivity. Qed.

  Lemma p_run_cons_ret o ops s w s' w' ans : p_run P (o :: ops) s w = Ret (s', w', ans) ->
    exists s1 w1 a rest, p_call P o s w = Ret (s1, w1, a) /\ p_run P ops s1 w1 = Ret (s', w', rest) /\ ans = a :: rest.
  Proof.
    rewrite p_run_cons. destruct (p_call P o s w) as [[[s1 w1] a]| |]; cbn [bind]; try discriminate.
    destruct (p_run P ops s1 w1) as [[[s2 w2] rest]| |] eqn:H; cbn [bind]; try discriminate.
    intros [= <- <- <-]. exists s1, w1, a, rest. auto.
  Qed.

  (** One call of the checker. *)
  Lemma inv_call_active o s k w :
    p_call (invariant_producer_v P) o (mk_invariant s true k) w =
    match o with
    | PConsider n => if k <? n then Panic else
        let* (i, w, a) := p_call P o s w in Ret (mk_invariant i true (k - n), w, a)
    | _ => let* (i, w, a) := p_call P o s w in
        Ret (mk_invariant i (negb (is_end o a)) match a with PSlice (Done (Ok (inl xs))) => length xs | _ => k end, w, a)
    end.
  Proof.
    destruct o; cbn.
    - unfold invariant_produce_cloning, inv_check; cbn. destruct (v_produce P s w) as [[[i w1] r]| |]; cbn; auto.
      destruct r as [[[x|f]|e]|]; reflexivity.
    - unfold invariant_call_v, inv_check; cbn. destruct (v_slurp P s w) as [[[i w1] r]| |]; cbn; auto.
      destruct r as [[[]|e]|]; reflexivity.
    - unfold invariant_expose_v, inv_check; cbn. destruct (v_expose P s w) as [[[i w1] r]| |]; cbn; auto.
      destruct r as [[[x|f]|e]|]; reflexivity.
    - unfold invariant_mark_v, inv_check; cbn. destruct (k <? n) eqn:Hk; cbn; auto.
      unfold csub. rewrite Hk; cbn. unfold forward. destruct (v_consider P n s w) as [[[i w1] r]| |]; cbn; auto.
      destruct r; reflexivity.
  Qed.

  Lemma inv_call_inactive o s k w : p_call (invariant_producer_v P) o (mk_invariant s false k) w = Panic.
  Proof. destruct o; reflexivity. Qed.

  Lemma inv_run_sound ops : forall s k w s' w' ans,
    p_run (invariant_producer_v P) ops (mk_invariant s true k) w = Ret (s', w', ans) ->
    p_run P ops s w = Ret (inv_inner s', w', ans) /\ p_rules k ops ans.
  Proof.
    induction ops as [|o ops IH]; intros s k w s' w' ans H.
    { cbn in H. injection H as <- <- <-. cbn. auto. }
    cbn [p_run] in H. rewrite inv_call_active in H. cbn [p_run].
    assert (Hend : forall i k1 w1 s2 w2 l, p_run (invariant_producer_v P) ops (mk_invariant i false k1) w1 = Ret (s2, w2, l) ->
              ops = [] /\ inv_inner s2 = i /\ w2 = w1 /\ l = []).
    { intros i k1 w1 s2 w2 l Hr. destruct ops as [|o' ops']; cbn [p_run] in Hr.
      - injection Hr as <- <- <-. auto.
      - rewrite inv_call_inactive in Hr. discriminate Hr. }
    assert (Hgo : forall i w1 a b k1, p_call P o s w = Ret (i, w1, a) -> b = negb (is_end o a) ->
      k1 = match o, a with PConsider n, _ => k - n | _, PSlice (Done (Ok (inl xs))) => length xs | _, _ => k end ->
      match o with PConsider n => n <= k | _ => True end ->
      (let* (s, w, rest) := p_run (invariant_producer_v P) ops (mk_invariant i b k1) w1 in Ret (s, w, a :: rest)) = Ret (s', w', ans) ->
      (let* (s, w, a) := p_call P o s w in let* (s, w, rest) := p_run P ops s w in Ret (s, w, a :: rest)) = Ret (inv_inner s', w', ans) /\
      p_rules k (o :: ops) ans).
    { intros i w1 a b k1 Hc Hb Hk Hn Hr. rewrite Hc; cbn [bind].
      destruct (p_run (invariant_producer_v P) ops (mk_invariant i b k1) w1) as [[[s2 w2] l]| |] eqn:Hr2; cbn [bind] in Hr; try discriminate Hr.
      injection Hr as <- <- <-. destruct b.
      - destruct (IH _ _ _ _ _ _ Hr2) as (H1 & H2). rewrite H1; cbn [bind]. split; [reflexivity|].
        cbn [p_rules]. split; [exact Hn|]. split; [|rewrite Hk in H2; exact H2].
        intros He. rewrite He in Hb. discriminate Hb.
      - destruct (Hend _ _ _ _ _ _ Hr2) as (-> & <- & -> & ->). cbn. split; [reflexivity|]. split; [exact Hn|]. auto. }
    destruct o as [| | |n].
    - destruct (p_call P PProduce s w) as [[[i w1] a]| |] eqn:Hc; cbn [bind] in H; try discriminate H.
      eapply Hgo; [reflexivity|reflexivity| |exact Logic.I|exact H]. reflexivity.
    - destruct (p_call P PSlurp s w) as [[[i w1] a]| |] eqn:Hc; cbn [bind] in H; try discriminate H.
      eapply Hgo; [reflexivity|reflexivity| |exact Logic.I|exact H]. reflexivity.
    - destruct (p_call P PExpose s w) as [[[i w1] a]| |] eqn:Hc; cbn [bind] in H; try discriminate H.
      eapply Hgo; [reflexivity|reflexivity| |exact Logic.I|exact H]. reflexivity.
    - destruct (k <? n) eqn:Hk; [discriminate H|]. apply Nat.ltb_ge in Hk.
      destruct (p_call P (PConsider n) s w) as [[[i w1] a]| |] eqn:Hc; cbn [bind] in H; try discriminate H.
      eapply Hgo; [reflexivity|reflexivity|reflexivity|exact Hk|exact H].
  Qed.

  Lemma inv_run_complete ops : forall s k w i' w' ans, p_run P ops s w = Ret (i', w', ans) ->
    (p_rules k ops ans -> exists s', p_run (invariant_producer_v P) ops (mk_invariant s true k) w = Ret (s', w', ans) /\ inv_inner s' = i') /\
    (~ p_rules k ops ans -> p_run (invariant_producer_v P) ops (mk_invariant s true k) w = Panic).
  Proof.
    induction ops as [|o ops IH]; intros s k w i' w' ans H.
    { cbn in H. injection H as <- <- <-. cbn. split; [|tauto]. intros _. eexists. split; reflexivity. }
    destruct (p_run_cons_ret _ _ _ _ H) as (s1 & w1 & a & rest & Hc & Hr & ->).
    set (k1 := match o, a with PConsider n, _ => k - n | _, PSlice (Done (Ok (inl xs))) => length xs | _, _ => k end).
    assert (Hcall : (match o with PConsider n => k < n | _ => False end /\
                     p_call (invariant_producer_v P) o (mk_invariant s true k) w = Panic) \/
                    (match o with PConsider n => n <= k | _ => True end /\
                     p_call (invariant_producer_v P) o (mk_invariant s true k) w = Ret (mk_invariant s1 (negb (is_end o a)) k1, w1, a))).
    { rewrite inv_call_active, Hc. subst k1. destruct o; cbn [bind]; auto.
      destruct (k <? n) eqn:Hk; [apply Nat.ltb_lt in Hk|apply Nat.ltb_ge in Hk]; auto. }
    cbn [p_run]. destruct Hcall as [[Hn Hcall]|[Hn Hcall]]; rewrite Hcall; cbn [bind].
    { split; [|auto]. intros [Hx _]. destruct o; try tauto. lia. }
    destruct (IH s1 k1 w1 _ _ _ Hr) as (H1 & H2).
    destruct (is_end o a) eqn:He; cbn [negb].
    - destruct ops as [|o' ops'].
      + cbn in Hr. injection Hr as <- <- <-. cbn [p_run bind]. split.
        * intros _. eexists. split; reflexivity.
        * intros Hx. destruct Hx. cbn. auto.
      + cbn [p_run]. rewrite inv_call_inactive; cbn [bind]. split; [|reflexivity].
        intros (_ & Hx & _). specialize (Hx He). discriminate Hx.
    - split.
      + intros (_ & _ & Hx). destruct (H1 Hx) as (s2 & -> & Hi). cbn [bind]. exists s2. auto.
      + intros Hx. rewrite H2; [reflexivity|]. intros Hy. apply Hx. cbn [p_rules]. repeat split; auto. rewrite He. discriminate.
  Qed.

  (** MapFinal. *)
  Section MapFinal.
    Context {B : Type} (g : F -> B).

    Lemma mf_call_some o s w : p_call (map_final_producer_v P) o (mk_with_fun s (Some g)) w =
      let* (i, w, a) := p_call P o s w in Ret (mk_with_fun i (if is_final a then None else Some g), w, final_by g a).
    Proof.
      destruct o; cbn.
      - unfold map_final_produce_cloning; cbn. destruct (v_produce P s w) as [[[i w1] r]| |]; cbn; auto. destruct r as [[[x|f]|e]|]; reflexivity.
      - unfold forward; cbn. destruct (v_slurp P s w) as [[[i w1] r]| |]; cbn; auto. destruct r as [r|]; reflexivity.
      - unfold map_final_expose_v; cbn. destruct (v_expose P s w) as [[[i w1] r]| |]; cbn; auto. destruct r as [[[x|f]|e]|]; reflexivity.
      - unfold forward; cbn. destruct (v_consider P n s w) as [[[i w1] r]| |]; cbn; auto. destruct r as [r|]; reflexivity.
    Qed.

    Lemma mf_call_none o s w : p_call (map_final_producer_v P) o (mk_with_fun s (@None (F -> B))) w =
      let* (i, w, a) := p_call P o s w in if is_final a then Panic else Ret (mk_with_fun i None, w, final_by g a).
    Proof.
      destruct o; cbn.
      - unfold map_final_produce_cloning; cbn. destruct (v_produce P s w) as [[[i w1] r]| |]; cbn; auto. destruct r as [[[x|f]|e]|]; reflexivity.
      - unfold forward; cbn. destruct (v_slurp P s w) as [[[i w1] r]| |]; cbn; auto. destruct r as [r|]; reflexivity.
      - unfold map_final_expose_v; cbn. destruct (v_expose P s w) as [[[i w1] r]| |]; cbn; auto. destruct r as [[[x|f]|e]|]; reflexivity.
      - unfold forward; cbn. destruct (v_consider P n s w) as [[[i w1] r]| |]; cbn; auto. destruct r as [r|]; reflexivity.
    Qed.

    Lemma mf_run ops : forall s (have : bool) w i' w' ans, p_run P ops s w = Ret (i', w', ans) ->
      p_run (map_final_producer_v P) ops (mk_with_fun s (if have then Some g else None)) w =
      if count is_final ans <=? (if have then 1 else 0)
      then Ret (mk_with_fun i' (if have && (count is_final ans =? 0) then Some g else None), w', map (final_by g) ans) else Panic.
    Proof.
      induction ops as [|o ops IH]; intros s have w i' w' ans H.
      { cbn in H. injection H as <- <- <-. destruct have; reflexivity. }
      destruct (p_run_cons_ret _ _ _ _ H) as (s1 & w1 & a & rest & Hc & Hr & ->). cbn [p_run].
      destruct have.
      - rewrite mf_call_some, Hc; cbn [bind]. destruct (is_final a) eqn:Hf.
        + rewrite (IH s1 false w1 _ _ _ Hr). unfold count; cbn [filter]; rewrite Hf; cbn [length].
          destruct (length (filter is_final rest)) as [|n] eqn:Hn; cbn; reflexivity.
        + rewrite (IH s1 true w1 _ _ _ Hr). unfold count; cbn [filter]; rewrite Hf.
          destruct (_ <=? 1); reflexivity.
      - rewrite mf_call_none, Hc; cbn [bind]. unfold count; cbn [filter]. destruct (is_final a) eqn:Hf; cbn [bind]; [reflexivity|].
        rewrite (IH s1 false w1 _ _ _ Hr). unfold count. destruct (_ <=? 0); reflexivity.
    Qed.
  End MapFinal.

  (** MapError. *)
  Section MapError.
    Context {B : Type} (g : E -> B).

    Lemma me_call_some o s w : p_call (map_error_producer_v P) o (mk_with_fun s (Some g)) w =
      let* (i, w, a) := p_call P o s w in Ret (mk_with_fun i (if returned a then None else Some g), w, error_by g a).
    Proof.
      destruct o; cbn; unfold map_error_call_v; cbn.
      - destruct (v_produce P s w) as [[[i w1] r]| |]; cbn; auto. destruct r; reflexivity.
      - destruct (v_slurp P s w) as [[[i w1] r]| |]; cbn; auto. destruct r; reflexivity.
      - destruct (v_expose P s w) as [[[i w1] r]| |]; cbn; auto. destruct r; reflexivity.
      - destruct (v_consider P n s w) as [[[i w1] r]| |]; cbn; auto. destruct r; reflexivity.
    Qed.

    Lemma me_call_none o s w : p_call (map_error_producer_v P) o (mk_with_fun s (@None (E -> B))) w =
      let* (i, w, a) := p_call P o s w in if returned a then Panic else Ret (mk_with_fun i None, w, error_by g a).
    Proof.
      destruct o; cbn; unfold map_error_call_v; cbn.
      - destruct (v_produce P s w) as [[[i w1] r]| |]; cbn; auto. destruct r; reflexivity.
      - destruct (v_slurp P s w) as [[[i w1] r]| |]; cbn; auto. destruct r; reflexivity.
      - destruct (v_expose P s w) as [[[i w1] r]| |]; cbn; auto. destruct r; reflexivity.
      - destruct (v_consider P n s w) as [[[i w1] r]| |]; cbn; auto. destruct r; reflexivity.
    Qed.

    Lemma me_run ops : forall s (have : bool) w i' w' ans, p_run P ops s w = Ret (i', w', ans) ->
      p_run (map_error_producer_v P) ops (mk_with_fun s (if have then Some g else None)) w =
      if count returned ans <=? (if have then 1 else 0)
      then Ret (mk_with_fun i' (if have && (count returned ans =? 0) then Some g else None), w', map (error_by g) ans) else Panic.
    Proof.
      induction ops as [|o ops IH]; intros s have w i' w' ans H.
      { cbn in H. injection H as <- <- <-. destruct have; reflexivity. }
      destruct (p_run_cons_ret _ _ _ _ H) as (s1 & w1 & a & rest & Hc & Hr & ->). cbn [p_run].
      destruct have.
      - rewrite me_call_some, Hc; cbn [bind]. destruct (returned a) eqn:Hf.
        + rewrite (IH s1 false w1 _ _ _ Hr). unfold count; cbn [filter]; rewrite Hf; cbn [length].
          destruct (length (filter returned rest)) as [|n] eqn:Hn; cbn; reflexivity.
        + rewrite (IH s1 true w1 _ _ _ Hr). unfold count; cbn [filter]; rewrite Hf.
          destruct (_ <=? 1); reflexivity.
      - rewrite me_call_none, Hc; cbn [bind]. unfold count; cbn [filter]. destruct (returned a) eqn:Hf; cbn [bind]; [reflexivity|].
        rewrite (IH s1 false w1 _ _ _ Hr). unfold count. destruct (_ <=? 0); reflexivity.
    Qed.
  End MapError.

  (** MapItem. *)
  Lemma mi_run {U} (f : T -> U) ops : Forall of_producer ops -> forall s w,
    p_run (map_item_producer_v f P) ops s w = let* (s, w, ans) := p_run P ops s w in Ret (s, w, map (item_by f) ans).
  Proof.
    induction 1 as [|o ops Ho Hops IH]; intros s w; [reflexivity|].
    cbn [p_run]. destruct Ho as [-> | ->]; cbn.
    - unfold forward. destruct (v_produce P s w) as [[[i w1] r]| |]; cbn; auto. rewrite IH.
      destruct (p_run P ops i w1) as [[[? ?] ?]| |]; cbn; auto.
    - destruct (v_slurp P s w) as [[[i w1] r]| |]; cbn; auto. rewrite IH.
      destruct (p_run P ops i w1) as [[[? ?] ?]| |]; cbn; auto.
  Qed.

  (** Limit. *)
  Lemma lim_call o s n w : p_call (limit_producer_v P) o (mk_limit s n) w =
    match o, n with
    | PProduce, 0 => Ret (mk_limit s 0, w, PItem (Done (Ok (inr None))))
    | PExpose, 0 => Ret (mk_limit s 0, w, PSlice (Done (Ok (inr None))))
    | _, _ => if n <? p_price o then Panic else
        let* (i, w, a) := p_call P o s w in
        Ret (mk_limit i (n - p_price o), w,
             match final_by Some a with PSlice (Done (Ok (inl xs))) => PSlice (Done (Ok (inl (firstn n xs)))) | a => a end)
    end.
  Proof.
    destruct o; cbn.
    - destruct n as [|n]; [reflexivity|]. unfold limit_produce_cloning; cbn -[Nat.sub]. destruct (v_produce P s w) as [[[i w1] r]| |]; cbn; auto.
      rewrite Nat.sub_0_r. destruct r as [[[x|f]|e]|]; reflexivity.
    - unfold limit_slurp_v, forward; cbn. destruct (v_slurp P s w) as [[[i w1] r]| |]; cbn.
      + destruct r; rewrite Nat.sub_0_r; destruct n; reflexivity.
      + destruct n; reflexivity.
      + destruct n; reflexivity.
    - destruct n as [|n]; [reflexivity|]. unfold limit_expose_v; cbn [lim_remaining lim_inner Nat.eqb].
      destruct (v_expose P s w) as [[[i w1] r]| |]; cbn [bind]; auto.
      cbn [Nat.ltb Nat.leb]. rewrite Nat.sub_0_r.
      destruct r as [[[x|f]|e]|]; try reflexivity. rewrite slice_min. reflexivity.
    - unfold limit_consider_v, csub, forward; cbn. destruct (n <? n0) eqn:Hn; cbn.
      + destruct n; reflexivity.
      + destruct (v_consider P n0 s w) as [[[i w1] r]| |]; cbn; auto. destruct r; reflexivity.
  Qed.

  Lemma lim_run_sound ops : forall s n w s' w' ans, p_run (limit_producer_v P) ops (mk_limit s n) w = Ret (s', w', ans) ->
    exists ops0 ans0, p_run P ops0 s w = Ret (lim_inner s', w', ans0) /\ limited n ops ans ops0 ans0 (lim_remaining s').
  Proof.
    induction ops as [|o ops IH]; intros s n w s' w' ans H.
    { cbn in H. injection H as <- <- <-. exists [], []. split; [reflexivity|constructor]. }
    cbn [p_run] in H. rewrite lim_call in H.
    assert (Hgo : forall (Hne : o = PExpose -> n <> 0),
      (let* (s, w, a) := (if n <? p_price o then Panic else
        let* (i, w, a) := p_call P o s w in
        Ret (mk_limit i (n - p_price o), w,
             match final_by Some a with PSlice (Done (Ok (inl xs))) => PSlice (Done (Ok (inl (firstn n xs)))) | a => a end)) in
       let* (s, w, rest) := p_run (limit_producer_v P) ops s w in Ret (s, w, a :: rest)) = Ret (s', w', ans) ->
      exists ops0 ans0, p_run P ops0 s w = Ret (lim_inner s', w', ans0) /\ limited n (o :: ops) ans ops0 ans0 (lim_remaining s')).
    { intros Hne Hx. destruct (n <? p_price o) eqn:Hp; [discriminate Hx|]. apply Nat.ltb_ge in Hp.
      destruct (p_call P o s w) as [[[i w1] a]| |] eqn:Hc; cbn [bind] in Hx; try discriminate Hx.
      destruct (p_run (limit_producer_v P) ops (mk_limit i (n - p_price o)) w1) as [[[s2 w2] l]| |] eqn:Hr; cbn [bind] in Hx; try discriminate Hx.
      injection Hx as <- <- <-. destruct (IH _ _ _ _ _ _ Hr) as (ops0 & ans0 & H1 & H2).
      exists (o :: ops0), (a :: ans0). split; [cbn [p_run]; rewrite Hc; cbn [bind]; rewrite H1; reflexivity|].
      eapply limited_call; [exact Hp|exact Hne|reflexivity|exact H2]. }
    assert (Hstop : forall a, (let* (s, w, a) := Ret (mk_limit s 0, w, a) in
                     let* (s, w, rest) := p_run (limit_producer_v P) ops s w in Ret (s, w, a :: rest)) = Ret (s', w', ans) ->
              exists ops0 ans0 l, p_run P ops0 s w = Ret (lim_inner s', w', ans0) /\ limited 0 ops l ops0 ans0 (lim_remaining s') /\ ans = a :: l).
    { intros a Hx. cbn [bind] in Hx. destruct (p_run (limit_producer_v P) ops (mk_limit s 0) w) as [[[s2 w2] l]| |] eqn:Hr; cbn [bind] in Hx; try discriminate Hx.
      injection Hx as <- <- <-. destruct (IH _ _ _ _ _ _ Hr) as (ops0 & ans0 & H1 & H2). exists ops0, ans0, l. auto. }
    destruct o as [| | |m]; [destruct n as [|n]| |destruct n as [|n]|].
    - destruct (Hstop _ H) as (ops0 & ans0 & l & H1 & H2 & ->). exists ops0, ans0. split; [exact H1|]. constructor. exact H2.
    - apply Hgo; [discriminate|exact H].
    - apply Hgo; [discriminate|exact H].
    - destruct (Hstop _ H) as (ops0 & ans0 & l & H1 & H2 & ->). exists ops0, ans0. split; [exact H1|]. constructor. exact H2.
    - apply Hgo; [discriminate|exact H].
    - apply Hgo; [discriminate|exact H].
  Qed.

  Lemma lim_run_complete n ops ans ops0 ans0 m : limited n ops ans ops0 ans0 m -> forall s w i' w', p_run P ops0 s w = Ret (i', w', ans0) ->
    p_run (limit_producer_v P) ops (mk_limit s n) w = Ret (mk_limit i' m, w', ans).
  Proof.
    induction 1 as [n|ops ans ops' ans' m Hl IH|ops ans ops' ans' m Hl IH|n o a a' ops ans ops' ans' m Hp Hne Ha Hl IH]; intros s w i' w' H.
    - cbn in H |- *. injection H as <- <-. reflexivity.
    - cbn [p_run]. rewrite lim_call; cbn [bind]. rewrite (IH _ _ _ _ H). reflexivity.
    - cbn [p_run]. rewrite lim_call; cbn [bind]. rewrite (IH _ _ _ _ H). reflexivity.
    - destruct (p_run_cons_ret _ _ _ _ H) as (s1 & w1 & a1 & rest & Hc & Hr & Heq). injection Heq as <- <-.
      cbn [p_run]. rewrite lim_call.
      replace (match o, n with
        | PProduce, 0 => Ret (mk_limit s 0, w, PItem (Done (Ok (inr None))))
        | PExpose, 0 => Ret (mk_limit s 0, w, PSlice (Done (Ok (inr None))))
        | _, _ => if n <? p_price o then Panic else
            let* (i, w, a) := p_call P o s w in
            Ret (mk_limit i (n - p_price o), w,
               match final_by Some a with PSlice (Done (Ok (inl xs))) => PSlice (Done (Ok (inl (firstn n xs)))) | a => a end)
        end) with (if n <? p_price o then Panic else
            let* (i, w, a) := p_call P o s w in
            Ret (mk_limit i (n - p_price o), w,
               match final_by Some a with PSlice (Done (Ok (inl xs))) => PSlice (Done (Ok (inl (firstn n xs)))) | a => a end)).
      2:{ destruct o; auto; destruct n; auto; [cbn in Hp; lia|]. destruct Hne; reflexivity. }
      replace (n <? p_price o) with false by (symmetry; apply Nat.ltb_ge; exact Hp).
      rewrite Hc; cbn [bind]. rewrite (IH _ _ _ _ Hr); cbn [bind]. rewrite Ha. reflexivity.
  Qed.

End Producers.

Lemma limited_accounts {W S T F E} (P : v_producer W S T F E) n ops ans ops0 ans0 m : @limited T F E n ops ans ops0 ans0 m ->
  forall s w i' w', p_run P ops0 s w = Ret (i', w', ans0) -> taken ops ans + count no_item ans + m = n.
Proof.
  unfold count. induction 1 as [n|ops ans ops' ans' m Hl IH|ops ans ops' ans' m Hl IH|n o a a' ops ans ops' ans' m Hp Hne Ha Hl IH]; intros s w i' w' H.
  - reflexivity.
  - cbn. eapply IH; eassumption.
  - cbn. eapply IH; eassumption.
  - destruct (p_run_cons_ret _ _ _ _ _ H) as (s1 & w1 & a1 & rest & Hc & Hr & Heq). injection Heq as <- <-.
    specialize (IH _ _ _ _ Hr).
    assert (Hshape : match o, a' with PProduce, PItem _ | PSlurp, PUnit _ | PExpose, PSlice _ | PConsider _, PUnit _ => True | _, _ => False end).
    { clear - Hc. destruct o as [| | |n0]; cbn in Hc.
      - destruct (v_produce P s w) as [[[? ?] ?]| |]; cbn in Hc; try discriminate Hc. injection Hc as <- <- <-. exact Logic.I.
      - destruct (v_slurp P s w) as [[[? ?] ?]| |]; cbn in Hc; try discriminate Hc. injection Hc as <- <- <-. exact Logic.I.
      - destruct (v_expose P s w) as [[[? ?] ?]| |]; cbn in Hc; try discriminate Hc. injection Hc as <- <- <-. exact Logic.I.
      - destruct (v_consider P n0 s w) as [[[? ?] ?]| |]; cbn in Hc; try discriminate Hc. injection Hc as <- <- <-. exact Logic.I. }
    subst a. destruct o as [| | |k]; destruct a' as [r|r|r]; try contradiction; cbn in Hp, IH |- *.
    + destruct r as [[[x|f]|e]|]; cbn; lia.
    + lia.
    + destruct r as [[[x|f]|e]|]; cbn; lia.
    + lia.
Qed.

Section Consumers.
  Context {W S T F E : Type} (C : v_consumer W S T F E).

  Lemma c_run_cons_ret o ops s w s' w' ans : c_run C (o :: ops) s w = Ret (s', w', ans) ->
    exists s1 w1 a rest, c_call C o s w = Ret (s1, w1, a) /\ c_run C ops s1 w1 = Ret (s', w', rest) /\ ans = a :: rest.
  Proof.
    cbn [c_run]. destruct (c_call C o s w) as [[[s1 w1] a]| |]; cbn [bind]; try discriminate.
    destruct (c_run C ops s1 w1) as [[[s2 w2] rest]| |] eqn:H; cbn [bind]; try discriminate.
    intros [= <- <- <-]. exists s1, w1, a, rest. auto.
  Qed.

  Lemma cinv_call_active o s k w :
    c_call (invariant_consumer_v C) o (mk_invariant s true k) w =
    match o with
    | CConsumeSlots n => if k <? n then Panic else
        let* (i, w, a) := c_call C o s w in Ret (mk_invariant i true (k - n), w, a)
    | _ => let* (i, w, a) := c_call C o s w in
        Ret (mk_invariant i (negb (c_is_end o a)) match a with CSlots (Done (Ok n)) => n | _ => k end, w, a)
    end.
  Proof.
    destruct o; cbn.
    - unfold invariant_call_v, inv_check; cbn. destruct (v_consume C x s w) as [[[i w1] r]| |]; cbn; auto. destruct r as [[[]|e]|]; reflexivity.
    - unfold invariant_close_v, inv_check, forward; cbn. destruct (v_close C f s w) as [[[i w1] r]| |]; cbn; auto. destruct r; reflexivity.
    - unfold invariant_call_v, inv_check; cbn. destruct (v_flush C s w) as [[[i w1] r]| |]; cbn; auto. destruct r as [[[]|e]|]; reflexivity.
    - unfold invariant_expose_slots_v, inv_check; cbn. destruct (v_expose_slots C s w) as [[[i w1] r]| |]; cbn; auto. destruct r as [[n|e]|]; reflexivity.
    - reflexivity.
    - unfold invariant_mark_v, inv_check; cbn. destruct (k <? n) eqn:Hk; cbn; auto.
      unfold csub. rewrite Hk; cbn. unfold forward. destruct (v_consume_slots C n s w) as [[[i w1] r]| |]; cbn; auto.
      destruct r; reflexivity.
  Qed.

  Lemma cinv_call_inactive o s k w : c_call (invariant_consumer_v C) o (mk_invariant s false k) w =
    match o with CWrite ys => Ret (mk_invariant (v_write C ys s) false k, w, CWritten) | _ => Panic end.
  Proof. destruct o; reflexivity. Qed.

  (** After the end nothing but writing. *)
  Lemma cinv_run_inactive ops : forall s k w,
    c_run (invariant_consumer_v C) ops (mk_invariant s false k) w =
    if forallb is_write ops then let* (i, w, ans) := c_run C ops s w in Ret (mk_invariant i false k, w, ans) else Panic.
  Proof.
    induction ops as [|o ops IH]; intros s k w; [reflexivity|]. cbn [c_run forallb]. rewrite cinv_call_inactive.
    destruct o; try reflexivity. cbn [is_write andb bind c_call]. rewrite IH.
    destruct (forallb is_write ops); [|reflexivity]. destruct (c_run C ops (v_write C ys s) w) as [[[? ?] ?]| |]; reflexivity.
  Qed.

  Lemma c_rules_writes ops : forall ans k s w i' w', forallb is_write ops = true -> c_run C ops s w = Ret (i', w', ans) -> c_rules k ops ans.
  Proof.
    induction ops as [|o ops IH]; intros ans k s w i' w' Hw H; [exact Logic.I|].
    destruct (c_run_cons_ret _ _ _ _ H) as (s1 & w1 & a & rest & Hc & Hr & ->).
    cbn [forallb] in Hw. apply andb_true_iff in Hw. destruct Hw as (Ho & Hw).
    destruct o; try discriminate Ho. cbn in Hc. injection Hc as <- <- <-. cbn. repeat split; auto. eapply IH; eassumption.
  Qed.

  Lemma cinv_run_sound ops : forall s k w s' w' ans,
    c_run (invariant_consumer_v C) ops (mk_invariant s true k) w = Ret (s', w', ans) ->
    c_run C ops s w = Ret (inv_inner s', w', ans) /\ c_rules k ops ans.
  Proof.
    induction ops as [|o ops IH]; intros s k w s' w' ans H.
    { cbn in H. injection H as <- <- <-. cbn. auto. }
    cbn [c_run] in H. rewrite cinv_call_active in H. cbn [c_run].
    assert (Hgo : forall i w1 a b k1, c_call C o s w = Ret (i, w1, a) -> b = negb (c_is_end o a) ->
      k1 = match o, a with CConsumeSlots n, _ => k - n | _, CSlots (Done (Ok n)) => n | _, _ => k end ->
      match o with CConsumeSlots n => n <= k | _ => True end ->
      (let* (s, w, rest) := c_run (invariant_consumer_v C) ops (mk_invariant i b k1) w1 in Ret (s, w, a :: rest)) = Ret (s', w', ans) ->
      (let* (s, w, a) := c_call C o s w in let* (s, w, rest) := c_run C ops s w in Ret (s, w, a :: rest)) = Ret (inv_inner s', w', ans) /\
      c_rules k (o :: ops) ans).
    { intros i w1 a b k1 Hc Hb Hk Hn Hr. rewrite Hc; cbn [bind].
      destruct (c_run (invariant_consumer_v C) ops (mk_invariant i b k1) w1) as [[[s2 w2] l]| |] eqn:Hr2; cbn [bind] in Hr; try discriminate Hr.
      injection Hr as <- <- <-. destruct b.
      - destruct (IH _ _ _ _ _ _ Hr2) as (H1 & H2). rewrite H1; cbn [bind]. split; [reflexivity|].
        cbn [c_rules]. split; [exact Hn|]. split; [|rewrite Hk in H2; exact H2].
        intros He. rewrite He in Hb. discriminate Hb.
      - rewrite cinv_run_inactive in Hr2. destruct (forallb is_write ops) eqn:Hw; [|discriminate Hr2].
        destruct (c_run C ops i w1) as [[[i2 w3] l2]| |] eqn:Hr3; cbn [bind] in Hr2; try discriminate Hr2. injection Hr2 as <- <- <-.
        cbn [bind inv_inner]. split; [reflexivity|]. cbn [c_rules]. split; [exact Hn|]. split; [auto|].
        eapply c_rules_writes; eassumption. }
    destruct o as [x|f| | |ys|n];
      try (match type of H with context [c_call C ?o s w] =>
             destruct (c_call C o s w) as [[[i w1] a]| |] eqn:Hc; cbn [bind] in H; try discriminate H;
             eapply Hgo; [reflexivity|reflexivity|reflexivity|exact Logic.I|exact H] end).
    destruct (k <? n) eqn:Hk; [discriminate H|]. apply Nat.ltb_ge in Hk.
    destruct (c_call C (CConsumeSlots n) s w) as [[[i w1] a]| |] eqn:Hc; cbn [bind] in H; try discriminate H.
    eapply Hgo; [reflexivity|reflexivity|reflexivity|exact Hk|exact H].
  Qed.

  Lemma cinv_run_complete ops : forall s k w i' w' ans, c_run C ops s w = Ret (i', w', ans) ->
    (c_rules k ops ans -> exists s', c_run (invariant_consumer_v C) ops (mk_invariant s true k) w = Ret (s', w', ans) /\ inv_inner s' = i') /\
    (~ c_rules k ops ans -> c_run (invariant_consumer_v C) ops (mk_invariant s true k) w = Panic).
  Proof.
    induction ops as [|o ops IH]; intros s k w i' w' ans H.
    { cbn in H. injection H as <- <- <-. cbn. split; [|tauto]. intros _. eexists. split; reflexivity. }
    destruct (c_run_cons_ret _ _ _ _ H) as (s1 & w1 & a & rest & Hc & Hr & ->).
    set (k1 := match o, a with CConsumeSlots n, _ => k - n | _, CSlots (Done (Ok n)) => n | _, _ => k end).
    assert (Hcall : (match o with CConsumeSlots n => k < n | _ => False end /\
                     c_call (invariant_consumer_v C) o (mk_invariant s true k) w = Panic) \/
                    (match o with CConsumeSlots n => n <= k | _ => True end /\
                     c_call (invariant_consumer_v C) o (mk_invariant s true k) w = Ret (mk_invariant s1 (negb (c_is_end o a)) k1, w1, a))).
    { rewrite cinv_call_active, Hc. subst k1. destruct o; cbn [bind]; auto.
      destruct (k <? n) eqn:Hk; [apply Nat.ltb_lt in Hk|apply Nat.ltb_ge in Hk]; auto. }
    cbn [c_run]. destruct Hcall as [[Hn Hcall]|[Hn Hcall]]; rewrite Hcall; cbn [bind].
    { split; [|auto]. intros [Hx _]. destruct o; try tauto. lia. }
    destruct (IH s1 k1 w1 _ _ _ Hr) as (H1 & H2).
    destruct (c_is_end o a) eqn:He; cbn [negb].
    - rewrite cinv_run_inactive, Hr. cbn [bind]. destruct (forallb is_write ops) eqn:Hw; cbn [bind]; split.
      + intros _. eexists. split; reflexivity.
      + intros Hx. destruct Hx. cbn [c_rules]. split; [exact Hn|]. split; [auto|]. eapply c_rules_writes; eassumption.
      + intros (_ & Hx & _). specialize (Hx He). rewrite Hw in Hx. discriminate Hx.
      + reflexivity.
    - split.
      + intros (_ & _ & Hx). destruct (H1 Hx) as (s2 & -> & Hi). cbn [bind]. exists s2. auto.
      + intros Hx. rewrite H2; [reflexivity|]. intros Hy. apply Hx. cbn [c_rules]. repeat split; auto. rewrite He. discriminate.
  Qed.

  Section MapFinal.
    Context {B : Type} (g : B -> F).

    Lemma cmf_call o s (have : bool) w : c_call (map_final_consumer_v C) o (mk_with_fun s (if have then Some g else None)) w =
      if is_close o && negb have then Panic else
      let* (i, w, a) := c_call C (close_by g o) s w in Ret (mk_with_fun i (if have && negb (is_close o) then Some g else None), w, a).
    Proof.
      destruct o; cbn; rewrite ?andb_true_r, ?andb_false_r; unfold forward; cbn.
      - destruct (v_consume C x s w) as [[[i w1] r]| |]; cbn; auto. destruct r; reflexivity.
      - unfold map_final_close_v; cbn. destruct have; cbn; [|reflexivity]. unfold forward.
        destruct (v_close C (g f) s w) as [[[i w1] r]| |]; cbn; auto. destruct r; reflexivity.
      - destruct (v_flush C s w) as [[[i w1] r]| |]; cbn; auto. destruct r; reflexivity.
      - destruct (v_expose_slots C s w) as [[[i w1] r]| |]; cbn; auto. destruct r; reflexivity.
      - reflexivity.
      - destruct (v_consume_slots C n s w) as [[[i w1] r]| |]; cbn; auto. destruct r; reflexivity.
    Qed.

    Lemma cmf_run ops : forall s (have : bool) w i' w' ans, c_run C (map (close_by g) ops) s w = Ret (i', w', ans) ->
      c_run (map_final_consumer_v C) ops (mk_with_fun s (if have then Some g else None)) w =
      if count is_close ops <=? (if have then 1 else 0)
      then Ret (mk_with_fun i' (if have && (count is_close ops =? 0) then Some g else None), w', ans) else Panic.
    Proof.
      induction ops as [|o ops IH]; intros s have w i' w' ans H.
      { cbn in H. injection H as <- <- <-. destruct have; reflexivity. }
      cbn [map] in H. destruct (c_run_cons_ret _ _ _ _ H) as (s1 & w1 & a & rest & Hc & Hr & ->). cbn [c_run].
      rewrite cmf_call, Hc; cbn [bind]. unfold count in *; cbn [filter].
      destruct have, (is_close o) eqn:Ho; cbn [andb negb bind].
      - rewrite (IH s1 false w1 _ _ _ Hr); cbn [length]. destruct (length (filter is_close ops)); reflexivity.
      - rewrite (IH s1 true w1 _ _ _ Hr). destruct (_ <=? 1); reflexivity.
      - reflexivity.
      - rewrite (IH s1 false w1 _ _ _ Hr). destruct (_ <=? 0); reflexivity.
    Qed.
  End MapFinal.

  Section MapError.
    Context {B : Type} (g : E -> B).

    Lemma cme_call o s (have : bool) w : c_call (map_error_consumer_v C) o (mk_with_fun s (if have then Some g else None)) w =
      let* (i, w, a) := c_call C o s w in
      if c_returned a && negb have then Panic
      else Ret (mk_with_fun i (if have && negb (c_returned a) then Some g else None), w, c_error_by g a).
    Proof.
      destruct o; cbn; unfold map_error_call_v; cbn.
      - destruct (v_consume C x s w) as [[[i w1] r]| |]; cbn; auto. destruct r, have; reflexivity.
      - destruct (v_close C f s w) as [[[i w1] r]| |]; cbn; auto. destruct r, have; reflexivity.
      - destruct (v_flush C s w) as [[[i w1] r]| |]; cbn; auto. destruct r, have; reflexivity.
      - destruct (v_expose_slots C s w) as [[[i w1] r]| |]; cbn; auto. destruct r, have; reflexivity.
      - destruct have; reflexivity.
      - destruct (v_consume_slots C n s w) as [[[i w1] r]| |]; cbn; auto. destruct r, have; reflexivity.
    Qed.

    Lemma cme_run ops : forall s (have : bool) w i' w' ans, c_run C ops s w = Ret (i', w', ans) ->
      c_run (map_error_consumer_v C) ops (mk_with_fun s (if have then Some g else None)) w =
      if count c_returned ans <=? (if have then 1 else 0)
      then Ret (mk_with_fun i' (if have && (count c_returned ans =? 0) then Some g else None), w', map (c_error_by g) ans) else Panic.
    Proof.
      induction ops as [|o ops IH]; intros s have w i' w' ans H.
      { cbn in H. injection H as <- <- <-. destruct have; reflexivity. }
      destruct (c_run_cons_ret _ _ _ _ H) as (s1 & w1 & a & rest & Hc & Hr & ->). cbn [c_run].
      rewrite cme_call, Hc; cbn [bind]. unfold count in *; cbn [filter].
      destruct have, (c_returned a) eqn:Ho; cbn [andb negb bind].
      - rewrite (IH s1 false w1 _ _ _ Hr); cbn [length]. destruct (length (filter c_returned rest)); reflexivity.
      - rewrite (IH s1 true w1 _ _ _ Hr). destruct (_ <=? 1); reflexivity.
      - reflexivity.
      - rewrite (IH s1 false w1 _ _ _ Hr). destruct (_ <=? 0); reflexivity.
    Qed.
  End MapError.

  Lemma cmi_run {U} (f : U -> T) ops : Forall of_consumer ops -> forall s w,
    c_run (map_item_consumer_v f C) ops s w = c_run C (map (give_by f) ops) s w.
  Proof.
    induction 1 as [|o ops Ho Hops IH]; intros s w; [reflexivity|].
    cbn [c_run map]. destruct o; try contradiction; cbn.
    - destruct (v_consume C (f x) s w) as [[[i w1] r]| |]; cbn; auto. rewrite IH. reflexivity.
    - destruct (v_close C f0 s w) as [[[i w1] r]| |]; cbn; auto. rewrite IH. reflexivity.
    - destruct (v_flush C s w) as [[[i w1] r]| |]; cbn; auto. rewrite IH. reflexivity.
  Qed.

  Lemma clim_call o s n w : c_call (limit_consumer_v C) o (mk_limit s n) w =
    match o, n with
    | CConsume _, 0 => Ret (mk_limit s 0, w, CUnit (Done (Err None)))
    | CExpose, 0 => Ret (mk_limit s 0, w, CSlots (Done (Err None)))
    | _, _ => if n <? c_price o then Panic else
        let* (i, w, a) := c_call C o s w in
        Ret (mk_limit i (n - c_price o), w,
             match c_error_by Some a with CSlots (Done (Ok k)) => CSlots (Done (Ok (Nat.min n k))) | a => a end)
    end.
  Proof.
    destruct o; cbn.
    - destruct n as [|n]; [reflexivity|]. unfold limit_consume_v, forward; cbn -[Nat.sub].
      destruct (v_consume C x s w) as [[[i w1] r]| |]; cbn; auto. rewrite Nat.sub_0_r. destruct r; reflexivity.
    - unfold limit_close_v, forward; cbn. rewrite Nat.sub_0_r. destruct (v_close C f s w) as [[[i w1] r]| |], n; reflexivity.
    - unfold limit_flush_v, forward; cbn. rewrite Nat.sub_0_r. destruct (v_flush C s w) as [[[i w1] r]| |], n; reflexivity.
    - destruct n as [|n]; [reflexivity|]. unfold limit_expose_slots_v; cbn [lim_remaining lim_inner Nat.eqb].
      destruct (v_expose_slots C s w) as [[[i w1] r]| |]; cbn [bind]; auto. cbn [Nat.ltb Nat.leb]. rewrite Nat.sub_0_r.
      destruct r as [[k|e]|]; reflexivity.
    - rewrite Nat.sub_0_r. destruct n; reflexivity.
    - unfold limit_consume_slots_v, csub, forward; cbn. destruct (n <? n0) eqn:Hn; cbn.
      + destruct n; reflexivity.
      + destruct (v_consume_slots C n0 s w) as [[[i w1] r]| |]; cbn; auto.
  Qed.

  Lemma clim_run_sound ops : forall s n w s' w' ans, c_run (limit_consumer_v C) ops (mk_limit s n) w = Ret (s', w', ans) ->
    exists ops0 ans0, c_run C ops0 s w = Ret (lim_inner s', w', ans0) /\ c_limited n ops ans ops0 ans0 (lim_remaining s').
  Proof.
    induction ops as [|o ops IH]; intros s n w s' w' ans H.
    { cbn in H. injection H as <- <- <-. exists [], []. split; [reflexivity|constructor]. }
    cbn [c_run] in H. rewrite clim_call in H.
    assert (Hgo : forall (Hne : o = CExpose -> n <> 0),
      (let* (s, w, a) := (if n <? c_price o then Panic else
        let* (i, w, a) := c_call C o s w in
        Ret (mk_limit i (n - c_price o), w,
             match c_error_by Some a with CSlots (Done (Ok k)) => CSlots (Done (Ok (Nat.min n k))) | a => a end)) in
       let* (s, w, rest) := c_run (limit_consumer_v C) ops s w in Ret (s, w, a :: rest)) = Ret (s', w', ans) ->
      exists ops0 ans0, c_run C ops0 s w = Ret (lim_inner s', w', ans0) /\ c_limited n (o :: ops) ans ops0 ans0 (lim_remaining s')).
    { intros Hne Hx. destruct (n <? c_price o) eqn:Hp; [discriminate Hx|]. apply Nat.ltb_ge in Hp.
      destruct (c_call C o s w) as [[[i w1] a]| |] eqn:Hc; cbn [bind] in Hx; try discriminate Hx.
      destruct (c_run (limit_consumer_v C) ops (mk_limit i (n - c_price o)) w1) as [[[s2 w2] l]| |] eqn:Hr; cbn [bind] in Hx; try discriminate Hx.
      injection Hx as <- <- <-. destruct (IH _ _ _ _ _ _ Hr) as (ops0 & ans0 & H1 & H2).
      exists (o :: ops0), (a :: ans0). split; [cbn [c_run]; rewrite Hc; cbn [bind]; rewrite H1; reflexivity|].
      eapply c_limited_call; [exact Hp|exact Hne|reflexivity|exact H2]. }
    assert (Hstop : forall a, (let* (s, w, a) := Ret (mk_limit s 0, w, a) in
                     let* (s, w, rest) := c_run (limit_consumer_v C) ops s w in Ret (s, w, a :: rest)) = Ret (s', w', ans) ->
              exists ops0 ans0 l, c_run C ops0 s w = Ret (lim_inner s', w', ans0) /\ c_limited 0 ops l ops0 ans0 (lim_remaining s') /\ ans = a :: l).
    { intros a Hx. cbn [bind] in Hx. destruct (c_run (limit_consumer_v C) ops (mk_limit s 0) w) as [[[s2 w2] l]| |] eqn:Hr; cbn [bind] in Hx; try discriminate Hx.
      injection Hx as <- <- <-. destruct (IH _ _ _ _ _ _ Hr) as (ops0 & ans0 & H1 & H2). exists ops0, ans0, l. auto. }
    destruct o as [x|f| | |ys|m]; [destruct n as [|n]| | |destruct n as [|n]| |]; try (apply Hgo; [discriminate|exact H]).
    - destruct (Hstop _ H) as (ops0 & ans0 & l & H1 & H2 & ->). exists ops0, ans0. split; [exact H1|]. constructor. exact H2.
    - destruct (Hstop _ H) as (ops0 & ans0 & l & H1 & H2 & ->). exists ops0, ans0. split; [exact H1|]. constructor. exact H2.
  Qed.

  Lemma clim_run_complete n ops ans ops0 ans0 m : c_limited n ops ans ops0 ans0 m -> forall s w i' w', c_run C ops0 s w = Ret (i', w', ans0) ->
    c_run (limit_consumer_v C) ops (mk_limit s n) w = Ret (mk_limit i' m, w', ans).
  Proof.
    induction 1 as [n|x ops ans ops' ans' m Hl IH|ops ans ops' ans' m Hl IH|n o a a' ops ans ops' ans' m Hp Hne Ha Hl IH]; intros s w i' w' H.
    - cbn in H |- *. injection H as <- <-. reflexivity.
    - cbn [c_run]. rewrite clim_call; cbn [bind]. rewrite (IH _ _ _ _ H). reflexivity.
    - cbn [c_run]. rewrite clim_call; cbn [bind]. rewrite (IH _ _ _ _ H). reflexivity.
    - destruct (c_run_cons_ret _ _ _ _ H) as (s1 & w1 & a1 & rest & Hc & Hr & Heq). injection Heq as <- <-.
      cbn [c_run].
      assert (Hcall : c_call (limit_consumer_v C) o (mk_limit s n) w = Ret (mk_limit s1 (n - c_price o), w1, a)).
      { rewrite clim_call, Hc. subst a. cbn [bind].
        replace (n <? c_price o) with false by (symmetry; apply Nat.ltb_ge; exact Hp).
        destruct o; auto; destruct n; auto; [cbn in Hp; lia|]. destruct Hne; reflexivity. }
      rewrite Hcall; cbn [bind]. rewrite (IH _ _ _ _ Hr); reflexivity.
  Qed.
End Consumers.

(** What reaches the inner consumer is paid for. *)
Lemma c_limited_accounts {T F E} n ops ans ops0 ans0 m : @c_limited T F E n ops ans ops0 ans0 m -> handed ops0 + m = n.
Proof.
  unfold handed. induction 1 as [n|x ops ans ops' ans' m Hl IH|ops ans ops' ans' m Hl IH|n o a a' ops ans ops' ans' m Hp Hne Ha Hl IH];
    cbn [map list_sum fold_right] in *; auto.
  change (fold_right Nat.add 0 (map c_price ops')) with (list_sum (map c_price ops')). lia.
Qed.

Section Pipes.
  Context {SP SC W T F PE CE : Type}
    (produce : SP -> W -> outcome (SP * W * caught (res (T + F) PE)))
    (consume : T -> SC -> W -> outcome (SC * W * caught (res unit CE)))
    (close : F -> SC -> W -> outcome (SC * W * caught (res unit CE))).
  Notation happens := (happens produce consume close).

  Lemma happens_app sp sc w es sp1 sc1 w1 es' sp' sc' w' :
    happens sp sc w es sp1 sc1 w1 -> happens sp1 sc1 w1 es' sp' sc' w' -> happens sp sc w (es ++ es') sp' sc' w'.
  Proof. induction 1; intros Hx; cbn; auto; econstructor; eauto. Qed.

  Lemma pipe_u_sound fuel : forall sp sc w sp' sc' w' r, pipe_u produce consume close fuel sp sc w = Ret (sp', sc', w', r) ->
    exists es, happens sp sc w es sp' sc' w' /\ piping es r.
  Proof.
    induction fuel as [|fuel IH]; intros sp sc w sp' sc' w' r H; [discriminate H|].
    cbn [pipe_u] in H. destruct (produce sp w) as [[[sp1 w1] rp]| |] eqn:Hp; cbn [bind] in H; try discriminate H.
    destruct rp as [[[x|f]|e]|].
    - destruct (consume x sc w1) as [[[sc1 w2] rc]| |] eqn:Hc; cbn [bind] in H; try discriminate H.
      destruct rc as [[[]|e]|].
      + destruct (IH _ _ _ _ _ _ _ H) as (es & H1 & H2). eexists. split; [|apply piping_item; exact H2].
        eapply happens_produce; [exact Hp|]. eapply happens_consume; [exact Hc|exact H1].
      + injection H as <- <- <- <-. eexists. split; [|apply piping_consumer_fails].
        eapply happens_produce; [exact Hp|]. eapply happens_consume; [exact Hc|constructor].
      + injection H as <- <- <- <-. eexists. split; [|apply piping_consumer_panics].
        eapply happens_produce; [exact Hp|]. eapply happens_consume; [exact Hc|constructor].
    - destruct (close f sc w1) as [[[sc1 w2] rc]| |] eqn:Hc; cbn [bind] in H; try discriminate H.
      destruct rc as [[[]|e]|]; injection H as <- <- <- <-; eexists; (split; [|constructor]);
        (eapply happens_produce; [exact Hp|]; eapply happens_close; [exact Hc|constructor]).
    - injection H as <- <- <- <-. eexists. split; [|apply piping_producer_fails]. eapply happens_produce; [exact Hp|constructor].
    - injection H as <- <- <- <-. eexists. split; [|apply piping_producer_panics]. eapply happens_produce; [exact Hp|constructor].
  Qed.

  Ltac inv_happens := repeat match goal with
    | H : PanicSpec.happens _ _ _ _ _ _ (_ :: _) _ _ _ |- _ => inversion H; clear H; subst
    | H : PanicSpec.happens _ _ _ _ _ _ [] _ _ _ |- _ => inversion H; clear H; subst
    end.

  Lemma pipe_u_complete es r : piping es r -> forall sp sc w sp' sc' w', happens sp sc w es sp' sc' w' ->
    exists bound, forall fuel, bound <= fuel -> pipe_u produce consume close fuel sp sc w = Ret (sp', sc', w', r).
  Proof.
    induction 1; intros sp sc w sp' sc' w' Hh.
    - inversion Hh; clear Hh; subst. match goal with H : PanicSpec.happens _ _ _ _ _ _ (_ :: _) _ _ _ |- _ => inversion H; clear H; subst end.
      match goal with H : PanicSpec.happens _ _ _ _ _ _ es _ _ _ |- _ => destruct (IHpiping _ _ _ _ _ _ H) as (bound & Hb) end.
      exists (Datatypes.S bound). intros [|fuel] Hf; [lia|]. cbn [pipe_u].
      repeat match goal with H : _ = Ret _ |- _ => rewrite H; cbn [bind]; clear H end. apply Hb. lia.
    - inv_happens. exists 1. intros [|fuel] Hf; [lia|]. cbn [pipe_u]. repeat match goal with H : _ = Ret _ |- _ => rewrite H; cbn [bind]; clear H end. reflexivity.
    - inv_happens. exists 1. intros [|fuel] Hf; [lia|]. cbn [pipe_u]. repeat match goal with H : _ = Ret _ |- _ => rewrite H; cbn [bind]; clear H end. reflexivity.
    - inv_happens. exists 1. intros [|fuel] Hf; [lia|]. cbn [pipe_u]. repeat match goal with H : _ = Ret _ |- _ => rewrite H; cbn [bind]; clear H end. reflexivity.
    - inv_happens. exists 1. intros [|fuel] Hf; [lia|]. cbn [pipe_u]. repeat match goal with H : _ = Ret _ |- _ => rewrite H; cbn [bind]; clear H end. reflexivity.
    - inv_happens. exists 1. intros [|fuel] Hf; [lia|]. cbn [pipe_u]. repeat match goal with H : _ = Ret _ |- _ => rewrite H; cbn [bind]; clear H end. reflexivity.
    - inv_happens. exists 1. intros [|fuel] Hf; [lia|]. cbn [pipe_u]. repeat match goal with H : _ = Ret _ |- _ => rewrite H; cbn [bind]; clear H end. reflexivity.
    - inv_happens. exists 1. intros [|fuel] Hf; [lia|]. cbn [pipe_u]. repeat match goal with H : _ = Ret _ |- _ => rewrite H; cbn [bind]; clear H end. reflexivity.
  Qed.

  Lemma pipe_again_sound attempts : forall fuel sp sc w sp' sc' w' r,
    pipe_again produce consume close attempts fuel sp sc w = Ret (sp', sc', w', r) ->
    exists es, happens sp sc w es sp' sc' w' /\ piping_again attempts es r.
  Proof.
    induction attempts as [|attempts IH]; intros fuel sp sc w sp' sc' w' r H; cbn [pipe_again] in H.
    - injection H as <- <- <- <-. exists []. split; constructor.
    - destruct (pipe_u produce consume close fuel sp sc w) as [[[[sp1 sc1] w1] r1]| |] eqn:Hp; cbn [bind] in H; try discriminate H.
      destruct (pipe_u_sound _ _ _ _ Hp) as (es & H1 & H2). destruct r1 as [r1|].
      + injection H as <- <- <- <-. exists es. split; [exact H1|]. constructor. exact H2.
      + destruct (IH _ _ _ _ _ _ _ _ H) as (es' & H3 & H4). exists (es ++ es'). split; [eapply happens_app; eassumption|].
        apply piping_once_more; assumption.
  Qed.
End Pipes.

Lemma piping_lists {T F PE CE} (es : list (event T F PE CE)) r : piping es r ->
  given es = emitted es /\ closings es = finals es /\
  length (given es) = length (accepted es) + count consumer_panicked es + count consumer_failed es /\
  (count panicked_event es + count consumer_failed es <= 1) /\
  count panicked_event es = match r with Unwound => 1 | Done _ => 0 end.
Proof.
  unfold count, given, emitted, closings, finals, accepted.
  induction 1 as [x es r H (H1 & H2 & H3 & H4 & H5)| | | | | | |]; cbn in *; repeat split; auto; try congruence; try lia.
Qed.

Lemma piping_again_lists {T F PE CE} n (es : list (event T F PE CE)) r : piping_again n es r ->
  given es = emitted es /\ closings es = finals es /\
  length (given es) = length (accepted es) + count consumer_panicked es + count consumer_failed es /\
  count consumer_failed es <= 1 /\ count panicked_event es <= n.
Proof.
  assert (Hc : forall (p : event T F PE CE -> bool) a b, count p (a ++ b) = count p a + count p b).
  { intros p a b. unfold count. rewrite filter_app, app_length. reflexivity. }
  induction 1 as [|n es r H|n es es' r H Ha (H1 & H2 & H3 & H4 & H5)].
  - cbn. repeat split; auto; lia.
  - destruct (piping_lists H) as (H1 & H2 & H3 & H4 & H5). repeat split; auto; lia.
  - destruct (piping_lists H) as (G1 & G2 & G3 & G4 & G5). unfold given, emitted, closings, finals, accepted in *.
    rewrite !flat_map_app, !Hc, !app_length. repeat split; try congruence; lia.
Qed.

Section BulkPipes.
  Context {SP SC W T F PE CE : Type}
    (expose : SP -> W -> outcome (SP * W * caught (res (list T + F) PE)))
    (consider : nat -> SP -> W -> outcome (SP * W * caught (res unit PE)))
    (bulk_consume : list T -> SC -> W -> outcome (SC * W * caught (res nat CE)))
    (close : F -> SC -> W -> outcome (SC * W * caught (res unit CE))).
  Notation happens := (bulk_happens expose consider bulk_consume close).

  Ltac event := first [apply bulk_happens_nothing | eapply bulk_happens_expose; [eassumption|event] | eapply bulk_happens_consume; [eassumption|event]
    | eapply bulk_happens_consider; [eassumption|event] | eapply bulk_happens_close; [eassumption|event]].

  Lemma bulk_pipe_v_sound fuel : forall sp sc w sp' sc' w' r, bulk_pipe_v expose consider bulk_consume close fuel sp sc w = Ret (sp', sc', w', r) ->
    exists es, happens sp sc w es sp' sc' w' /\ bulk_piping es r.
  Proof.
    induction fuel as [|fuel IH]; intros sp sc w sp' sc' w' r H; [discriminate H|].
    cbn [bulk_pipe_v] in H. destruct (expose sp w) as [[[sp1 w1] rp]| |] eqn:Hp; cbn [bind] in H; try discriminate H.
    destruct rp as [[[xs|f]|e]|].
    - destruct (bulk_consume xs sc w1) as [[[sc1 w2] rc]| |] eqn:Hc; cbn [bind] in H; try discriminate H.
      destruct rc as [[n|e]|].
      + destruct (consider n sp1 w2) as [[[sp2 w3] rn]| |] eqn:Hn; cbn [bind] in H; try discriminate H.
        destruct rn as [[[]|e]|].
        * destruct (IH _ _ _ _ _ _ _ H) as (es & H1 & H2). eexists. split; [|apply bulk_piping_items; exact H2].
          eapply bulk_happens_expose; [exact Hp|]. eapply bulk_happens_consume; [exact Hc|]. eapply bulk_happens_consider; [exact Hn|exact H1].
        * injection H as <- <- <- <-. eexists. split; [|apply bulk_piping_consider_fails]. event.
        * injection H as <- <- <- <-. eexists. split; [|apply bulk_piping_consider_panics]. event.
      + injection H as <- <- <- <-. eexists. split; [|apply bulk_piping_consumer_fails]. event.
      + injection H as <- <- <- <-. eexists. split; [|apply bulk_piping_consumer_panics]. event.
    - destruct (close f sc w1) as [[[sc1 w2] rc]| |] eqn:Hc; cbn [bind] in H; try discriminate H.
      destruct rc as [[[]|e]|]; injection H as <- <- <- <-; eexists; (split; [|constructor]); event.
    - injection H as <- <- <- <-. eexists. split; [|apply bulk_piping_producer_fails]. event.
    - injection H as <- <- <- <-. eexists. split; [|apply bulk_piping_producer_panics]. event.
  Qed.

  Ltac inv_happens := repeat match goal with
    | H : bulk_happens _ _ _ _ _ _ _ (_ :: _) _ _ _ |- _ => inversion H; clear H; subst
    | H : bulk_happens _ _ _ _ _ _ _ [] _ _ _ |- _ => inversion H; clear H; subst
    end.

  Lemma bulk_pipe_v_complete es r : bulk_piping es r -> forall sp sc w sp' sc' w', happens sp sc w es sp' sc' w' ->
    exists bound, forall fuel, bound <= fuel -> bulk_pipe_v expose consider bulk_consume close fuel sp sc w = Ret (sp', sc', w', r).
  Proof.
    induction 1; intros sp sc w sp' sc' w' Hh; inv_happens;
      try (exists 1; intros [|fuel] Hf; [lia|]; cbn [bulk_pipe_v];
           repeat match goal with H : _ = Ret _ |- _ => rewrite H; cbn [bind]; clear H end; reflexivity).
    match goal with H : bulk_happens _ _ _ _ _ _ _ es _ _ _ |- _ => destruct (IHbulk_piping _ _ _ _ _ _ H) as (bound & Hb) end.
    exists (Datatypes.S bound). intros [|fuel] Hf; [lia|]. cbn [bulk_pipe_v].
    repeat match goal with H : _ = Ret _ |- _ => rewrite H; cbn [bind]; clear H end. apply Hb. lia.
  Qed.
End BulkPipes.

Lemma bulk_piping_sums {T F PE CE} (es : list (bevent T F PE CE)) r : bulk_piping es r ->
  claimed es = told es /\
  (noted es = claimed es \/ exists before n, (es = before ++ [BConsidered n Unwound] \/ exists e, es = before ++ [BConsidered n (Done (Err e))]) /\
     noted es + n = claimed es).
Proof.
  unfold claimed, told, noted, list_sum. induction 1 as [xs n es r H (H1 & H2)| | | | |xs n|xs n e| | |]; cbn in *;
    try (split; [reflexivity|left; reflexivity]).
  - split; [lia|]. destruct H2 as [H2|(before & m & He & H2)]; [left; lia|right].
    exists (BExposed (Done (Ok (inl xs))) :: BConsumed xs (Done (Ok n)) :: BConsidered n (Done (Ok tt)) :: before), m.
    split; [|lia]. destruct He as [-> |[e ->]]; [left; reflexivity|right; exists e; reflexivity].
  - split; [lia|]. right. exists [BExposed (Done (Ok (inl xs))); BConsumed xs (Done (Ok n))], n. split; [left; reflexivity|lia].
  - split; [lia|]. right. exists [BExposed (Done (Ok (inl xs))); BConsumed xs (Done (Ok n))], n. split; [right; exists e; reflexivity|lia].
Qed.

(** Around objects that do not panic. *)
Lemma calm_limit_p {W S T F E} (P : bulk_producer S T F E) : p_same (W := W) (limit_producer_v (calm_producer P)) (calm_producer (limit_producer P)).
Proof.
  intros o [s n] w. destruct o; cbn.
  - unfold calm, limit_produce_cloning, limit_produce; cbn. destruct n; [reflexivity|]. destruct (p_produce P s) as [[i [[x|f]|e]]| |]; reflexivity.
  - unfold calm, limit_slurp_v, limit_slurp, forward; cbn. destruct (p_slurp P s) as [[i r]| |]; reflexivity.
  - unfold calm, limit_expose_v, limit_expose; cbn -[slice_to]. destruct n; [reflexivity|]. cbn -[slice_to].
    destruct (p_expose P s) as [[i [[x|f]|e]]| |]; try reflexivity. cbn -[slice_to Nat.min].
    match goal with |- context [slice_to ?k x] => destruct (slice_to k x); reflexivity end.
  - unfold calm, limit_consider_v, limit_consider, forward; cbn. destruct (csub n n0); cbn; [|reflexivity..]. destruct (p_consider P n0 s) as [[i r]| |]; reflexivity.
Qed.

Lemma calm_map_final_p {W S T F B E} (P : bulk_producer S T F E) :
  p_same (W := W) (map_final_producer_v (B := B) (calm_producer P)) (calm_producer (map_final_producer P)).
Proof.
  intros o [s g] w. destruct o; cbn.
  - unfold calm, map_final_produce_cloning, map_final_produce, map_final_result; cbn.
    destruct (p_produce P s) as [[i [[x|f]|e]]| |]; try reflexivity; cbn; destruct g; reflexivity.
  - unfold calm, map_final_slurp, forward; cbn. destruct (p_slurp P s) as [[i r]| |]; reflexivity.
  - unfold calm, map_final_expose_v, map_final_expose, map_final_result; cbn.
    destruct (p_expose P s) as [[i [[x|f]|e]]| |]; try reflexivity; cbn; destruct g; reflexivity.
  - unfold calm, map_final_consider, forward; cbn. destruct (p_consider P n s) as [[i r]| |]; reflexivity.
Qed.

Lemma calm_map_error_p {W S T F E B} (P : bulk_producer S T F E) :
  p_same (W := W) (map_error_producer_v (B := B) (calm_producer P)) (calm_producer (map_error_producer P)).
Proof.
  intros o [s g] w. destruct o; cbn; unfold calm, map_error_call_v, map_error_call; cbn.
  - destruct (p_produce P s) as [[i r]| |]; try reflexivity; cbn; destruct g; reflexivity.
  - destruct (p_slurp P s) as [[i r]| |]; try reflexivity; cbn; destruct g; reflexivity.
  - destruct (p_expose P s) as [[i r]| |]; try reflexivity; cbn; destruct g; reflexivity.
  - destruct (p_consider P n s) as [[i r]| |]; try reflexivity; cbn; destruct g; reflexivity.
Qed.

Lemma calm_invariant_p {W S T F E} (P : bulk_producer S T F E) : p_same (W := W) (invariant_producer_v (calm_producer P)) (calm_producer (invariant_producer P)).
Proof.
  intros o [s b k] w. destruct o; cbn; unfold calm.
  - unfold invariant_produce_cloning, invariant_produce, inv_check; cbn. destruct b; [|reflexivity]. destruct (p_produce P s) as [[i [[x|f]|e]]| |]; reflexivity.
  - unfold invariant_call_v, invariant_slurp, inv_check; cbn. destruct b; [|reflexivity]. destruct (p_slurp P s) as [[i [[]|e]]| |]; reflexivity.
  - unfold invariant_expose_v, invariant_expose, inv_check; cbn. destruct b; [|reflexivity]. destruct (p_expose P s) as [[i [[x|f]|e]]| |]; reflexivity.
  - unfold invariant_mark_v, invariant_consider, inv_check, forward; cbn. destruct b; [|reflexivity]. destruct (k <? n); [reflexivity|].
    destruct (csub k n); cbn; auto. destruct (p_consider P n s) as [[i r]| |]; reflexivity.
Qed.

Lemma calm_limit_c {W S T F E} (C : bulk_consumer S T F E) : c_same (W := W) (limit_consumer_v (calm_consumer C)) (calm_consumer (limit_consumer C)).
Proof.
  intros o [s n] w. destruct o; cbn; unfold calm; try reflexivity.
  - unfold limit_consume_v, limit_consume, forward; cbn. destruct n; [reflexivity|]. destruct (c_consume C x s) as [[i r]| |]; reflexivity.
  - unfold limit_close_v, limit_close, forward; cbn. destruct (c_close C f s) as [[i r]| |]; reflexivity.
  - unfold limit_flush_v, limit_flush, forward; cbn. destruct (c_flush C s) as [[i r]| |]; reflexivity.
  - unfold limit_expose_slots_v, limit_expose_slots; cbn. destruct n; [reflexivity|]. cbn. destruct (c_expose C s) as [[i [k|e]]| |]; reflexivity.
  - unfold limit_consume_slots_v, limit_consume_slots, forward; cbn. destruct (csub n n0); cbn; auto. destruct (c_consume_slots C n0 s) as [[i r]| |]; reflexivity.
Qed.

Lemma calm_map_final_c {W S T F B E} (C : bulk_consumer S T F E) :
  c_same (W := W) (map_final_consumer_v (B := B) (calm_consumer C)) (calm_consumer (map_final_consumer C)).
Proof.
  intros o [s g] w. destruct o; cbn; unfold calm; try reflexivity.
  - unfold map_final_consume, forward; cbn. destruct (c_consume C x s) as [[i r]| |]; reflexivity.
  - unfold map_final_close_v, map_final_close, forward; cbn. destruct g; [|reflexivity]. cbn. destruct (c_close C (f0 f) s) as [[i r]| |]; reflexivity.
  - unfold map_final_flush, forward; cbn. destruct (c_flush C s) as [[i r]| |]; reflexivity.
  - unfold map_final_expose_slots, forward; cbn. destruct (c_expose C s) as [[i r]| |]; reflexivity.
  - unfold map_final_consume_slots, forward; cbn. destruct (c_consume_slots C n s) as [[i r]| |]; reflexivity.
Qed.

Lemma calm_map_error_c {W S T F E B} (C : bulk_consumer S T F E) :
  c_same (W := W) (map_error_consumer_v (B := B) (calm_consumer C)) (calm_consumer (map_error_consumer C)).
Proof.
  intros o [s g] w. destruct o; cbn; unfold calm, map_error_call_v, map_error_call; cbn; try reflexivity.
  - destruct (c_consume C x s) as [[i r]| |]; try reflexivity; cbn; destruct g; reflexivity.
  - destruct (c_close C f s) as [[i r]| |]; try reflexivity; cbn; destruct g; reflexivity.
  - destruct (c_flush C s) as [[i r]| |]; try reflexivity; cbn; destruct g; reflexivity.
  - destruct (c_expose C s) as [[i r]| |]; try reflexivity; cbn; destruct g; reflexivity.
  - destruct (c_consume_slots C n s) as [[i r]| |]; try reflexivity; cbn; destruct g; reflexivity.
Qed.

Lemma calm_invariant_c {W S T F E} (C : bulk_consumer S T F E) : c_same (W := W) (invariant_consumer_v (calm_consumer C)) (calm_consumer (invariant_consumer C)).
Proof.
  intros o [s b k] w. destruct o; cbn; unfold calm; try reflexivity.
  - unfold invariant_call_v, invariant_consume, inv_check; cbn. destruct b; [|reflexivity]. destruct (c_consume C x s) as [[i [[]|e]]| |]; reflexivity.
  - unfold invariant_close_v, invariant_close, inv_check, forward; cbn. destruct b; [|reflexivity]. destruct (c_close C f s) as [[i r]| |]; reflexivity.
  - unfold invariant_call_v, invariant_flush, inv_check; cbn. destruct b; [|reflexivity]. destruct (c_flush C s) as [[i [[]|e]]| |]; reflexivity.
  - unfold invariant_expose_slots_v, invariant_expose_slots, inv_check; cbn. destruct b; [|reflexivity]. destruct (c_expose C s) as [[i [x|e]]| |]; reflexivity.
  - unfold invariant_mark_v, invariant_consume_slots, inv_check, forward; cbn. destruct b; [|reflexivity]. destruct (k <? n); [reflexivity|].
    destruct (csub k n); cbn; auto. destruct (c_consume_slots C n s) as [[i r]| |]; reflexivity.
Qed.

(** The states in which the methods of the adaptors return [Pending]. *)
From Coq Require Import Bool List Arith Lia.
From Verif Require Import Prelude ListFacts Traits Contracts ContractFacts BasicModel AdaptorModel AsyncModel AsyncSpec AsyncProofs AsyncAdaptorModel AsyncYieldProofs AsyncSuspendProofs.
Import ListNotations.

Lemma after_sync : forall S X Y (g : S -> outcome (S * X)) (k : X -> fut S Y) s,
  suspended (await (sync g) k) s = match g s with Ret (s', x) => suspended (k x) s' | _ => [] end.
Proof. intros. rewrite suspended_await, suspended_sync, run_sync. reflexivity. Qed.
Lemma after_get : forall S Y (k : S -> fut S Y) s, suspended (await get k) s = suspended (k s) s.
Proof. intros. unfold get. now rewrite after_sync. Qed.
Lemma after_put : forall S Y (k : unit -> fut S Y) t s, suspended (await (put t) k) s = suspended (k tt) t.
Proof. intros. unfold put. now rewrite after_sync. Qed.

(** *** Default methods *)
Section Defaults.
  Context {S T F E : Type}.

  Lemma bulk_produce_suspended : forall (expose : fut S (res (list T + F) E)) (consider : nat -> fut S (res unit E)) buf s,
    suspended (a_bulk_produce expose consider buf) s =
    suspended expose s ++ match run expose s with Ret (s1, Ok (inl items)) => suspended (consider (Nat.min (length items) (length buf))) s1 | _ => [] end.
  Proof.
    intros expose consider buf s. unfold a_bulk_produce. rewrite suspended_await. f_equal. destruct (run expose s) as [[s1 [[items|f]|e]]| |]; try reflexivity.
    apply suspended_first. po.
  Qed.

  Lemma bulk_consume_suspended : forall (expose : fut S (res nat E)) write (consume_slots : nat -> fut S (res unit E)) (buf : list T) s,
    suspended (a_bulk_consume expose write consume_slots buf) s =
    suspended expose s ++ match run expose s with
                          | Ret (s1, Ok slots) => let n := Nat.min slots (length buf) in suspended (consume_slots n) (write (firstn n buf) s1)
                          | _ => []
                          end.
  Proof.
    intros expose write consume_slots buf s. unfold a_bulk_consume. rewrite suspended_await. f_equal. destruct (run expose s) as [[s1 [n|e]]| |]; try reflexivity.
    cbv zeta. rewrite suspended_await, suspended_sync, run_sync. cbn [app bind]. apply suspended_first. po.
  Qed.
End Defaults.

(** *** Limit *)
Section Limit.
  Context {S T F E : Type}.
  Notation kept r := (map (fun i : S => mk_limit i r)).

  Lemma lim_suspended : forall X (f : fut S X) s, suspended (a_lim f) s = kept (lim_remaining s) (suspended f (lim_inner s)).
  Proof. intros. unfold a_lim. now rewrite suspended_within by reflexivity. Qed.

  Variables (P : a_bulk_producer S T F E) (C : a_bulk_consumer S T F E).

  Lemma limit_produce_suspended : forall s, suspended (a_limit_produce P) s =
    match lim_remaining s with 0 => [] | Datatypes.S r => kept r (suspended (ap_produce P) (lim_inner s)) end.
  Proof.
    intros [i r]. unfold a_limit_produce. rewrite after_get. cbn [lim_remaining lim_inner]. destruct r as [|r]; [reflexivity|].
    rewrite after_put, suspended_first by po. now rewrite lim_suspended.
  Qed.
  Lemma limit_expose_suspended : forall s, suspended (a_limit_expose P) s =
    if lim_remaining s =? 0 then [] else kept (lim_remaining s) (suspended (ap_expose P) (lim_inner s)).
  Proof.
    intros s. unfold a_limit_expose. rewrite after_get. destruct (lim_remaining s =? 0); [reflexivity|]. rewrite suspended_first by po. now rewrite lim_suspended.
  Qed.
  Lemma limit_consider_suspended : forall n s, suspended (a_limit_consider P n) s =
    if n <=? lim_remaining s then kept (lim_remaining s - n) (suspended (ap_consider P n) (lim_inner s)) else [].
  Proof.
    intros n s. unfold a_limit_consider. rewrite after_sync. unfold csub. rewrite Nat.ltb_antisym. destruct (n <=? lim_remaining s); [|reflexivity]. cbn [bind negb]. now rewrite lim_suspended.
  Qed.

  Lemma limit_consume_suspended : forall x s, suspended (a_limit_consume C x) s =
    match lim_remaining s with 0 => [] | Datatypes.S r => kept r (suspended (ac_consume C x) (lim_inner s)) end.
  Proof.
    intros x [i r]. unfold a_limit_consume. rewrite after_get. cbn [lim_remaining lim_inner]. destruct r as [|r]; [reflexivity|].
    rewrite after_put, suspended_first by po. now rewrite lim_suspended.
  Qed.
  Lemma limit_close_suspended : forall f s, suspended (a_limit_close C f) s = kept (lim_remaining s) (suspended (ac_close C f) (lim_inner s)).
  Proof. intros f s. unfold a_limit_close. rewrite suspended_first by po. now rewrite lim_suspended. Qed.
  Lemma limit_flush_suspended : forall s, suspended (a_limit_flush C) s = kept (lim_remaining s) (suspended (ac_flush C) (lim_inner s)).
  Proof. intros s. unfold a_limit_flush. rewrite suspended_first by po. now rewrite lim_suspended. Qed.
  Lemma limit_slots_suspended : forall s, suspended (a_limit_expose_slots C) s =
    if lim_remaining s =? 0 then [] else kept (lim_remaining s) (suspended (ac_expose C) (lim_inner s)).
  Proof.
    intros s. unfold a_limit_expose_slots. rewrite after_get. destruct (lim_remaining s =? 0); [reflexivity|]. rewrite suspended_first by po. now rewrite lim_suspended.
  Qed.
  Lemma limit_consume_slots_suspended : forall n s, suspended (a_limit_consume_slots C n) s =
    if n <=? lim_remaining s then kept (lim_remaining s - n) (suspended (ac_consume_slots C n) (lim_inner s)) else [].
  Proof.
    intros n s. unfold a_limit_consume_slots. rewrite after_sync. unfold csub. rewrite Nat.ltb_antisym. destruct (n <=? lim_remaining s); [|reflexivity]. cbn [bind negb].
    rewrite suspended_first by po. now rewrite lim_suspended.
  Qed.
End Limit.

(** *** MapItem *)
Section MapItem.
  Context {S T U W F E : Type}.
  Notation kept w := (map (fun i : S => mk_map_item i (w : W))).

  Lemma mi_suspended : forall X (f : fut S X) s, suspended (a_mi f) s = kept (mi_closure s) (suspended f (mi_inner s)).
  Proof. intros. unfold a_mi. now rewrite suspended_within by reflexivity. Qed.

  Lemma map_item_produce_suspended : forall (P : a_producer S T F E) (f : W -> T -> W * U) s,
    suspended (a_map_item_produce P f) s = kept (mi_closure s) (suspended (ap_produce P) (mi_inner s)).
  Proof.
    intros P f s. unfold a_map_item_produce. rewrite suspended_first; [now rewrite mi_suspended|]. intros [[x|fin]|e]; [|po|po].
    apply po_await; [po|]. intros t. destruct (f (mi_closure t) x). po.
  Qed.
  Lemma map_item_consume_suspended : forall (C : a_consumer S T F E) (f : W -> U -> W * T) x s,
    suspended (a_map_item_consume C f x) s =
    kept (fst (f (mi_closure s) x)) (suspended (ac_consume C (snd (f (mi_closure s) x))) (mi_inner s)).
  Proof.
    intros C f x s. unfold a_map_item_consume. rewrite after_get. destruct (f (mi_closure s) x) as [w y]. rewrite after_put. now rewrite mi_suspended.
  Qed.
End MapItem.

(** *** MapFinal, MapError *)
Section WithFun.
  Context {S G : Type}.
  Notation kept g := (map (fun i : S => mk_with_fun i (g : option G))).

  Lemma wf_suspended : forall X (f : fut S X) s, suspended (a_wf f) s = kept (wf_fun s) (suspended f (wf_inner s)).
  Proof. intros. unfold a_wf. now rewrite suspended_within by reflexivity. Qed.
End WithFun.

Lemma map_final_call_suspended : forall S F B E X (call : fut S (res (X + F) E)) (s : with_fun S (F -> B)),
  suspended (a_map_final_call call) s = map (fun i => mk_with_fun i (wf_fun s)) (suspended call (wf_inner s)).
Proof. intros. unfold a_map_final_call. rewrite suspended_first; [now rewrite wf_suspended|]. unfold a_take_fun. po. Qed.
Lemma map_final_close_suspended : forall S T F B E (C : a_consumer S T F E) (fin : B) s,
  suspended (a_map_final_close C fin) s =
  match wf_fun s with Some g => map (fun i => mk_with_fun i None) (suspended (ac_close C (g fin)) (wf_inner s)) | None => [] end.
Proof.
  intros. unfold a_map_final_close, a_take_fun. rewrite after_sync. destruct (wf_fun s) as [g|]; [|reflexivity]. cbn [expect bind]. now rewrite wf_suspended.
Qed.
Lemma map_error_call_suspended : forall S E B X (call : fut S (res X E)) (s : with_fun S (E -> B)),
  suspended (a_map_error_call call) s = map (fun i => mk_with_fun i (wf_fun s)) (suspended call (wf_inner s)).
Proof. intros. unfold a_map_error_call. rewrite suspended_first; [now rewrite wf_suspended|]. unfold a_take_fun. po. Qed.

(** *** Invariant *)
Section Invariant.
  Context {S T F E : Type}.
  Notation kept a n := (map (fun i : S => mk_invariant i a n)).
  Variables (P : a_bulk_producer S T F E) (C : a_bulk_consumer S T F E).

  Lemma inv_suspended : forall X (f : fut S X) s, suspended (a_inv f) s = kept (inv_active s) (inv_exposed s) (suspended f (inv_inner s)).
  Proof. intros. unfold a_inv. now rewrite suspended_within by reflexivity. Qed.
  Lemma after_check : forall Y (k : unit -> fut (invariant S) Y) s, suspended (await a_check_inactive k) s = if inv_active s then suspended (k tt) s else [].
  Proof. intros. unfold a_check_inactive. rewrite after_sync. now destruct (inv_active s). Qed.
  Lemma after_count : forall Y n (k : unit -> fut (invariant S) Y) s, suspended (await (a_count_exposed n) k) s =
    if n <=? inv_exposed s then suspended (k tt) (mk_invariant (inv_inner s) (inv_active s) (inv_exposed s - n)) else [].
  Proof.
    intros. unfold a_count_exposed. rewrite after_sync. unfold csub. rewrite Nat.ltb_antisym. now destruct (n <=? inv_exposed s).
  Qed.

  Lemma invariant_produce_suspended : forall s, suspended (a_invariant_produce P) s =
    if inv_active s then kept true (inv_exposed s) (suspended (ap_produce P) (inv_inner s)) else [].
  Proof.
    intros s. unfold a_invariant_produce. rewrite after_check. destruct (inv_active s) eqn:Ea; [|reflexivity].
    rewrite suspended_first by (unfold a_deactivate; po). rewrite inv_suspended, Ea. reflexivity.
  Qed.
  Lemma invariant_unit_suspended : forall (call : fut S (res unit E)) s, suspended (a_invariant_unit call) s =
    if inv_active s then kept true (inv_exposed s) (suspended call (inv_inner s)) else [].
  Proof.
    intros call s. unfold a_invariant_unit. rewrite after_check. destruct (inv_active s) eqn:Ea; [|reflexivity].
    rewrite suspended_first by (unfold a_deactivate; po). rewrite inv_suspended, Ea. reflexivity.
  Qed.
  Lemma invariant_expose_suspended : forall s, suspended (a_invariant_expose P) s =
    if inv_active s then kept true (inv_exposed s) (suspended (ap_expose P) (inv_inner s)) else [].
  Proof.
    intros s. unfold a_invariant_expose. rewrite after_check. destruct (inv_active s) eqn:Ea; [|reflexivity].
    rewrite suspended_first by (unfold a_deactivate; po). rewrite inv_suspended, Ea. reflexivity.
  Qed.
  Lemma invariant_consider_suspended : forall n s, suspended (a_invariant_consider P n) s =
    if inv_active s && (n <=? inv_exposed s) then kept true (inv_exposed s - n) (suspended (ap_consider P n) (inv_inner s)) else [].
  Proof.
    intros n s. unfold a_invariant_consider. rewrite after_check. destruct (inv_active s) eqn:Ea; [|reflexivity]. rewrite after_count. cbn [andb].
    destruct (n <=? inv_exposed s); [|reflexivity]. rewrite inv_suspended. cbn. now rewrite Ea.
  Qed.
  Lemma invariant_close_suspended : forall f s, suspended (a_invariant_close C f) s =
    if inv_active s then kept false (inv_exposed s) (suspended (ac_close C f) (inv_inner s)) else [].
  Proof.
    intros f s. unfold a_invariant_close. rewrite after_check. destruct (inv_active s); [|reflexivity]. unfold a_deactivate. rewrite after_sync. now rewrite inv_suspended.
  Qed.
  Lemma invariant_slots_suspended : forall s, suspended (a_invariant_expose_slots C) s =
    if inv_active s then kept true (inv_exposed s) (suspended (ac_expose C) (inv_inner s)) else [].
  Proof.
    intros s. unfold a_invariant_expose_slots. rewrite after_check. destruct (inv_active s) eqn:Ea; [|reflexivity].
    rewrite suspended_first by (unfold a_deactivate; po). rewrite inv_suspended, Ea. reflexivity.
  Qed.
  Lemma invariant_consume_slots_suspended : forall n s, suspended (a_invariant_consume_slots C n) s =
    if inv_active s && (n <=? inv_exposed s) then kept true (inv_exposed s - n) (suspended (ac_consume_slots C n) (inv_inner s)) else [].
  Proof.
    intros n s. unfold a_invariant_consume_slots. rewrite after_check. destruct (inv_active s) eqn:Ea; [|reflexivity]. rewrite after_count. cbn [andb].
    destruct (n <=? inv_exposed s); [|reflexivity]. rewrite inv_suspended. cbn. now rewrite Ea.
  Qed.
End Invariant.

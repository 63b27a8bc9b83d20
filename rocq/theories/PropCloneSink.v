(** Property C109: the consumer scrambler for items with any implementation of [Clone]. *)
From Coq Require Import Bool List Arith Lia.
From Verif Require Import Prelude QueueModel QueueSpec QueueProofs Traits Contracts ContractFacts BasicModel BufferedSpec Reference
  CloneModel CloneSpec CloneProofs ScramblerModel ScramblerProofs CloneScramblerSpec CloneSinkModel CloneSinkSpec CloneSinkProofs PropClone.
Import ListNotations.

(** *** C109 *)

(** Any calls within the rules, with panics of [clone] caught at each of them; without debug assertions (see C30). *)
Theorem C109_scrambler_with_any_clone :
  forall (W S A T F E : Type) (clone : T -> W -> W * option T) (x0 : T) (C : bulk_consumer S T F E) (M : machine A T F E) R D s a k v pat cap fuel
    (calls : list (cop T F)) (w : W),
  lawful_consumer_core C M R D -> R s a k v ->
  1 <= cap -> (forall n, In (ScConsumeSlots n) pat -> 1 <= n) ->
  Datatypes.S cap * Datatypes.S (length pat) <= fuel ->
  t_conforms clone M cap false fuel C calls (cscr_new_with_capacity x0 s pat cap) w (BActive a [] 0 []).
Proof.
  intros W S A T F E clone x0 C M R D s a k v pat cap fuel calls w L HR Hc Hn Hf.
  exact (@t_scrambler_conforms W S A T F E clone x0 C M R D L s a k v pat cap fuel HR Hc Hn Hf calls w).
Qed.
Print Assumptions C109_scrambler_with_any_clone.

(** Every item that was taken is accounted for: forwarded, lost with a call that panicked, or in the queue. *)
Theorem C109_every_item_is_accounted_for :
  forall (W S A T F E : Type) (clone : T -> W -> W * option T) (x0 : T) (C : bulk_consumer S T F E) (M : machine A T F E) R D s a k v pat cap fuel
    (calls : list (cop T F)) (w : W),
  lawful_consumer_core C M R D -> R s a k v ->
  1 <= cap -> (forall n, In (ScConsumeSlots n) pat -> 1 <= n) ->
  Datatypes.S cap * Datatypes.S (length pat) <= fuel ->
  exists h s' w' b',
    t_history clone M cap false fuel C (cscr_new_with_capacity x0 s pat cap) w (BActive a [] 0 []) h s' w' b' /\
    (calls = map fst h \/ exists o calls', calls = map fst h ++ o :: calls' /\ ~ b_permitted b' o) /\
    exists handled fs rest, t_given [] h = handled ++ rest /\ Forall2 (meets clone) handled fs /\ gone fs <= t_torn h /\
      match b' with
      | BActive a' pend _ _ => m_forwards M a (came fs) a' /\ Forall2 (descends clone) rest pend /\ length pend <= cap /\ R (cs_inner s') a' 0 []
      | BEnded a' => D (cs_inner s') a' /\ exists a1, m_forwards M a (came fs) a1 /\ t_end M rest a1 a'
      end.
Proof.
  intros W S A T F E clone x0 C M R D s a k v pat cap fuel calls w L HR Hc Hn Hf.
  exact (@t_scrambler_accounts W S A T F E clone x0 C M R D L s a k v pat cap fuel HR Hc Hn Hf calls w).
Qed.
Print Assumptions C109_every_item_is_accounted_for.

(** A [clone] that may panic, but otherwise copies. *)
Theorem C109_faithful_clone :
  forall (W S A T F E : Type) (clone : T -> W -> W * option T) (M : machine A T F E) cap dbg fuel (C : bulk_consumer S T F E) s w a h s' w' a' pend k v,
  (forall x w w' y, clone x w = (w', Some y) -> y = x) ->
  t_history clone M cap dbg fuel C s w (BActive a [] 0 []) h s' w' (BActive a' pend k v) ->
  exists handled out n, t_given [] h = handled ++ pend /\ thinned n handled out /\ n <= t_torn h /\ m_forwards M a out a'.
Proof. intros W S A T F E clone M cap dbg fuel C s w a h s' w' a' pend k v Hy Hh. exact (faithful_clone_thins Hy Hh). Qed.
Print Assumptions C109_faithful_clone.

(** A [clone] that copies and never panics: nothing is lost or changed. *)
Theorem C109_tame_clone :
  forall (W S A T F E : Type) (clone : T -> W -> W * option T) (M : machine A T F E) cap dbg fuel (C : bulk_consumer S T F E) s w a h s' w' a' pend k v,
  (forall x w, snd (clone x w) <> None) -> (forall x w w' y, clone x w = (w', Some y) -> y = x) ->
  t_history clone M cap dbg fuel C s w (BActive a [] 0 []) h s' w' (BActive a' pend k v) ->
  exists out, t_given [] h = out ++ pend /\ m_forwards M a out a'.
Proof. intros W S A T F E clone M cap dbg fuel C s w a h s' w' a' pend k v Ht Hy Hh. exact (tame_clone Ht Hy Hh). Qed.
Print Assumptions C109_tame_clone.

(** With the identity for [clone], the model is that of C30. *)
Theorem C109_plain_clone_is_the_plain_model :
  forall (S T F E : Type) (dbg : bool) (x0 : T) (C : bulk_consumer S T F E) fuel o (s : cscr S T),
    t_do plain_clone dbg fuel C o s tt = let* (s', r) := c_do (cscr_consumer dbg x0 fuel C) o s in Ret (s', tt, Done r).
Proof. intros S T F E dbg x0 C fuel o s. exact (t_do_plain dbg x0 C fuel o s). Qed.
Print Assumptions C109_plain_clone_is_the_plain_model.

(** A machine that writes down what it gets, and refuses the item 66; a consumer with two slots for it. *)
Definition ex_log : machine (list nat) nat nat nat :=
  {| m_step := fun x a => if x =? 66 then (a, Err 5) else (a ++ [x], Ok tt);
     m_finish := fun f a => (a ++ [f], Ok tt);
     m_flush := fun a => (a, Ok tt) |}.

Example C109_ex_log_lawful : lawful_consumer_core (ref_consumer ex_log 2) ex_log (ref_rel (T := nat)) (ref_end (T := nat)) /\ ref_rel ([], @nil nat) ([] : list nat) 0 [].
Proof. split; [apply (ref_lawful ex_log); lia|apply ref_start]. Qed.

(** One call after the other, and what the inner consumer has got at the end. *)
Fixpoint t_run_all (calls : list (cop nat nat)) (s : cscr (ref_state (A := list nat) (T := nat)) nat) (w : nat)
  : outcome (list nat * nat * list (caught (cans nat))) :=
  match calls with
  | [] => Ret (fst (cs_inner s), w, [])
  | o :: calls =>
      let* (s, w, r) := t_do ex_clone false 100 (ref_consumer ex_log 2) o s w in
      let* (a, w, rs) := t_run_all calls s w in
      Ret (a, w, r :: rs)
  end.
Definition ex_sink (pat : list cscr_op) (cap : nat) : cscr (ref_state (A := list nat) (T := nat)) nat :=
  cscr_new_with_capacity 0 ([], []) pat cap.

(** One by one: the item 13 is lost, and so is 3, which was to be consumed when the queue was full. *)
Example C109_example_consume :
  t_run_all [CConsume 1; CConsume 13; CConsume 3; CConsume 4; CFlush] (ex_sink [ScConsume] 2) 0
  = Ret ([101; 104], 3, [Done (CAUnit (Ok tt)); Done (CAUnit (Ok tt)); Unwound; Done (CAUnit (Ok tt)); Done (CAUnit (Ok tt))]).
Proof. vm_compute. reflexivity. Qed.

(** In bulk: the item 13 stays in the queue, and nothing gets past it. *)
Example C109_example_stuck :
  t_run_all [CConsume 1; CConsume 13; CConsume 3; CFlush; CClose 9; CFlush] (ex_sink [ScConsumeSlots 1] 2) 0
  = Ret ([101], 5, [Done (CAUnit (Ok tt)); Done (CAUnit (Ok tt)); Unwound; Unwound; Unwound; Unwound]).
Proof. vm_compute. reflexivity. Qed.

(** Through slots, the items are cloned once; with [bulk_consume], twice; a [bulk_consume] that panics takes nothing. *)
Example C109_example_bulk :
  t_run_all [CExpose; CWrite [1; 2]; CConsumeSlots 2; CFlush; CBulkConsume [3; 13]; CBulkConsume [4]; CFlush; CConsume 66; CFlush; CClose 9] (ex_sink [ScConsumeSlots 2; ScFlush] 4) 0
  = Ret ([101; 102; 204; 166; 9], 7,
         [Done (CASlots (Ok 4)); Done CANone; Done (CAUnit (Ok tt)); Done (CAUnit (Ok tt)); Unwound; Done (CANat (Ok 1));
          Done (CAUnit (Ok tt)); Done (CAUnit (Ok tt)); Done (CAUnit (Ok tt)); Done (CAUnit (Ok tt))]).
Proof. vm_compute. reflexivity. Qed.

(** Model of MapItem, MapFinal and MapError for closures that have side effects and may panic.

    [f x w] runs the closure on [x] in the world [w] (its captured variables, and whatever else it reads and changes): it answers
    the world afterwards and the result, or [None] if it panics. The panic unwinds out of the call of the adaptor; the caller may
    catch it and use the adaptor again, so the state it is left in is part of the answer. AdaptorModel.v has the same
    functions for closures that do not panic. Paths are relative to ufotofu/src. *)
From Coq Require Import Bool List Arith.
From Verif Require Import Prelude Traits AdaptorModel CloneModel.
Import ListNotations.
Set Implicit Arguments.

Section MapItem.
  Context {S W T U F E : Type} (f : T -> W -> W * option U).

  (** producer/map_item.rs 37-42. The state of the adaptor is that of the inner producer; that of the closure is in [w]. *)
  Definition map_item_produce_u (P : producer S T F E) (s : S) (w : W) : outcome (S * W * caught (res (U + F) E)) :=
    let* (s, r) := p_produce P s in
    match r with
    | Err e => Ret (s, w, Done (Err e))
    | Ok (inl item) =>
        match f item w with
        | (w, Some y) => Ret (s, w, Done (Ok (inl y)))
        | (w, None) => Ret (s, w, Unwound)
        end
    | Ok (inr fin) => Ret (s, w, Done (Ok (inr fin)))
    end.

  (** consumer/map_item.rs 46-48. *)
  Definition map_item_consume_u (C : consumer S U F E) (item : T) (s : S) (w : W) : outcome (S * W * caught (res unit E)) :=
    match f item w with
    | (w, Some y) =>
        let* (s, r) := c_consume C y s in
        Ret (s, w, Done r)
    | (w, None) => Ret (s, w, Unwound)
    end.
End MapItem.

(** Calls of objects that do not panic. *)
Definition calm_produce {S W T F E} (P : producer S T F E) (s : S) (w : W) : outcome (S * W * caught (res (T + F) E)) :=
  let* (s, r) := p_produce P s in Ret (s, w, Done r).
Definition calm_consume {S W T F E} (C : consumer S T F E) (item : T) (s : S) (w : W) : outcome (S * W * caught (res unit E)) :=
  let* (s, r) := c_consume C item s in Ret (s, w, Done r).
Definition calm_close {S W T F E} (C : consumer S T F E) (fin : F) (s : S) (w : W) : outcome (S * W * caught (res unit E)) :=
  let* (s, r) := c_close C fin s in Ret (s, w, Done r).

Section Pipe.
  Context {SP SC W T F PE CE : Type}
    (produce : SP -> W -> outcome (SP * W * caught (res (T + F) PE)))
    (consume : T -> SC -> W -> outcome (SC * W * caught (res unit CE)))
    (close : F -> SC -> W -> outcome (SC * W * caught (res unit CE))).

  (** [pipe], lib.rs 541-574, with a producer and a consumer whose methods may unwind. *)
  Fixpoint pipe_u (fuel : nat) (sp : SP) (sc : SC) (w : W) : outcome (SP * SC * W * caught (res unit (pipe_error PE CE))) :=
    match fuel with
    | 0 => NoFuel
    | S fuel =>
        let* (sp, w, r) := produce sp w in
        match r with
        | Unwound => Ret (sp, sc, w, Unwound)
        | Done (Ok (inl item)) =>
            let* (sc, w, rc) := consume item sc w in
            match rc with
            | Unwound => Ret (sp, sc, w, Unwound)
            | Done (Ok tt) => pipe_u fuel sp sc w
            | Done (Err consumer_error) => Ret (sp, sc, w, Done (Err (PipeConsumer consumer_error)))
            end
        | Done (Ok (inr final_value)) =>
            let* (sc, w, rc) := close final_value sc w in
            match rc with
            | Unwound => Ret (sp, sc, w, Unwound)
            | Done (Ok tt) => Ret (sp, sc, w, Done (Ok tt))
            | Done (Err consumer_error) => Ret (sp, sc, w, Done (Err (PipeConsumer consumer_error)))
            end
        | Done (Err producer_error) => Ret (sp, sc, w, Done (Err (PipeProducer producer_error)))
        end
    end.

  (** A caller that catches panics and calls [pipe] again, up to [attempts] times. *)
  Fixpoint pipe_again (attempts fuel : nat) (sp : SP) (sc : SC) (w : W) : outcome (SP * SC * W * caught (res unit (pipe_error PE CE))) :=
    match attempts with
    | 0 => Ret (sp, sc, w, Unwound)
    | S attempts =>
        let* (sp, sc, w, r) := pipe_u fuel sp sc w in
        match r with
        | Unwound => pipe_again attempts fuel sp sc w
        | Done r => Ret (sp, sc, w, Done r)
        end
    end.
End Pipe.

(** The closures of MapFinal and MapError are [FnOnce]: they are taken out of their [Option] before they are called. *)
Section MapFinal.
  Context {S W T F B E : Type}.

  (** producer/map_final.rs 40-49. *)
  Definition map_final_produce_u (P : producer S T F E) (s : with_fun S (F -> W -> W * option B)) (w : W)
    : outcome (with_fun S (F -> W -> W * option B) * W * caught (res (T + B) E)) :=
    let* (i, r) := p_produce P (wf_inner s) in
    match r with
    | Err e => Ret (mk_with_fun i (wf_fun s), w, Done (Err e))
    | Ok (inl item) => Ret (mk_with_fun i (wf_fun s), w, Done (Ok (inl item)))
    | Ok (inr fin) =>
        let* g := expect (wf_fun s) in
        match g fin w with
        | (w, Some b) => Ret (mk_with_fun i None, w, Done (Ok (inr b)))
        | (w, None) => Ret (mk_with_fun i None, w, Unwound)
        end
    end.

  (** consumer/map_final.rs 46-55. *)
  Definition map_final_close_u (C : consumer S T F E) (fin : B) (s : with_fun S (B -> W -> W * option F)) (w : W)
    : outcome (with_fun S (B -> W -> W * option F) * W * caught (res unit E)) :=
    let* g := expect (wf_fun s) in
    match g fin w with
    | (w, Some y) =>
        let* (i, r) := c_close C y (wf_inner s) in
        Ret (mk_with_fun i None, w, Done r)
    | (w, None) => Ret (mk_with_fun (wf_inner s) None, w, Unwound)
    end.
End MapFinal.

(** producer/map_error.rs 40-46 and so on, consumer/map_error.rs 38-44 and so on. *)
Definition map_error_call_u {S W E B X} (call : S -> outcome (S * res X E)) (s : with_fun S (E -> W -> W * option B)) (w : W)
  : outcome (with_fun S (E -> W -> W * option B) * W * caught (res X B)) :=
  let* (i, r) := call (wf_inner s) in
  let* g := expect (wf_fun s) in
  match r with
  | Ok x => Ret (mk_with_fun i None, w, Done (Ok x))
  | Err e =>
      match g e w with
      | (w, Some b) => Ret (mk_with_fun i None, w, Done (Err b))
      | (w, None) => Ret (mk_with_fun i None, w, Unwound)
      end
  end.

(** What is left behind by a call that is dropped while it is pending. *)
From Coq Require Import Bool List Arith.
From Verif Require Import Prelude Traits Contracts QueueModel ScramblerModel BufferedSpec AsyncModel AsyncSpec.
Import ListNotations.
Set Implicit Arguments.

(** A [pipe_at_most] that returned [Pending], for a producer with the items [xs] and then [l], and a consumer in the state [a]: fewer than
    [count] items [ys] have been produced and consumed, and exactly one of the two objects is in the middle of a call. *)
Definition pipe_at_most_interrupted {SP SC A T F PE CE} (P : a_producer SP T F PE) (R : SP -> list T -> res F PE -> nat -> Prop) (D : SP -> Prop)
    (C : a_consumer SC T F CE) (M : machine A T F CE) (RC : SC -> A -> nat -> list T -> Prop)
    (count : nat) (xs : list T) (l : res F PE) (a : A) (sp : SP) (sc : SC) : Prop :=
  exists ys rest a', xs = ys ++ rest /\ length ys < count /\ m_feed M ys a = (a', length ys, None) /\
   ((exists sp0 k kk w, R sp0 rest l k /\ In sp (suspended (ap_produce P) sp0) /\ RC sc a' kk w) \/
    (exists x rest', rest = x :: rest' /\ (exists k, R sp rest' l k) /\
       exists sc0 kk w, RC sc0 a' kk w /\ In sc (suspended (ac_consume C x) sc0)) \/
    (exists f, rest = [] /\ l = Ok f /\ D sp /\ exists sc0 kk w, RC sc0 a' kk w /\ In sc (suspended (ac_close C f) sc0))).

(** The same for [bulk_pipe_at_most]: it offers the consumer no more of the exposed items than may still be piped. *)
Definition bulk_pipe_at_most_interrupted {SP SC A T F PE CE} (P : a_bulk_producer SP T F PE) (R : SP -> list T -> res F PE -> nat -> Prop) (D : SP -> Prop)
    (C : a_bulk_consumer SC T F CE) (M : machine A T F CE) (RC : SC -> A -> nat -> list T -> Prop)
    (count : nat) (xs : list T) (l : res F PE) (a : A) (sp : SP) (sc : SC) : Prop :=
  exists ys rest a', xs = ys ++ rest /\ length ys < count /\ m_feed M ys a = (a', length ys, None) /\
   ((exists sp0 k kk w, R sp0 rest l k /\ In sp (suspended (ap_expose P) sp0) /\ RC sc a' kk w) \/
    (exists zs rest', rest = zs ++ rest' /\ zs <> [] /\ R sp rest l (length zs) /\
       exists sc0 kk w, RC sc0 a' kk w /\ In sc (suspended (ac_bulk_consume C (firstn (count - length ys) zs)) sc0)) \/
    (exists zs rest' n a'', rest = zs ++ rest' /\ 1 <= n <= length zs /\ length ys + n <= count /\ m_feed M (firstn n zs) a' = (a'', n, None) /\
       (exists kk w, RC sc a'' kk w) /\ exists sp0, R sp0 rest l (length zs) /\ In sp (suspended (ap_consider P n) sp0)) \/
    (exists f, rest = [] /\ l = Ok f /\ D sp /\ exists sc0 kk w, RC sc0 a' kk w /\ In sc (suspended (ac_close C f) sc0))).

(** The items in the ring buffer of a [Fixed]. *)
Definition queued {T} (q : fixed T) (items : list T) : Prop :=
  map (fun i => nth_error (fx_data q) ((fx_read q + i) mod length (fx_data q))) (seq 0 (fx_amount q)) = map Some items.

(** A producer scrambler that returned [Pending] while it had the items [xs], and then [l], left. It is in the middle of a call to the
    inner producer, and no item is missing. *)
Definition pscr_interrupted {S T F E} (P : a_bulk_producer S T F E) (R : S -> list T -> res F E -> nat -> Prop) (D : S -> Prop)
    (xs : list T) (l : res F E) (s : pscr S T F E) : Prop :=
  exists ahead, queued (ps_buffer s) ahead /\
   ((exists behind s0 k, xs = ahead ++ behind /\ R s0 behind l k /\
       (In (ps_inner s) (suspended (ap_produce P) s0) \/ In (ps_inner s) (suspended (ap_expose P) s0) \/ In (ps_inner s) (suspended (ap_slurp P) s0))) \/
    (* the inner producer is being told of [n] items that are in the queue already *)
    (exists behind s0 k n, xs = ahead ++ skipn n behind /\ R s0 behind l k /\ 1 <= n <= k /\
       (exists before, ahead = before ++ firstn n behind) /\ In (ps_inner s) (suspended (ap_consider P n) s0)) \/
    (* [slurp], after the inner producer has ended *)
    (xs = ahead /\ exists s0, D s0 /\ In (ps_inner s) (suspended (ap_slurp P) s0))).

(** A consumer scrambler that returned [Pending], and that held the items [pend] when it was called, with the inner consumer in the state
    [a]. Some items [out] have been consumed by the inner consumer, possibly with flushes in between. *)
Definition cscr_interrupted {S A T F E} (C : a_bulk_consumer S T F E) (M : machine A T F E) (R : S -> A -> nat -> list T -> Prop)
    (pend : list T) (a : A) (s : cscr S T) : Prop :=
  exists out rest a1 s0, pend = out ++ rest /\ rest <> [] /\ m_forwards M a out a1 /\
   ((* the inner [consume] has the item, the queue does not any more *)
    (exists x rest', rest = x :: rest' /\ queued (cs_buffer s) rest' /\ R s0 a1 0 [] /\ In (cs_inner s) (suspended (ac_consume C x) s0)) \/
    (queued (cs_buffer s) rest /\ R s0 a1 0 [] /\ (In (cs_inner s) (suspended (ac_expose C) s0) \/ In (cs_inner s) (suspended (ac_flush C) s0))) \/
    (* the items are in the slots of the inner consumer *)
    (exists n k, 1 <= n <= k /\ n <= length rest /\ queued (cs_buffer s) (skipn n rest) /\ R s0 a1 k (firstn n rest) /\
       In (cs_inner s) (suspended (ac_consume_slots C n) s0))).
(** After all items have been forwarded: the inner [flush] or [close]. *)
Definition cscr_finishing {S A T F E} (M : machine A T F E) (R : S -> A -> nat -> list T -> Prop) (call : fut S (res unit E))
    (pend : list T) (a : A) (s : cscr S T) : Prop :=
  queued (cs_buffer s) [] /\ exists a1 s0, m_forwards M a pend a1 /\ R s0 a1 0 [] /\ In (cs_inner s) (suspended call s0).

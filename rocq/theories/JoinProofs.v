(** The two tasks of the compat targets, with a bounded connection between them. *)
From Coq Require Import Bool List Arith Lia.
From Verif Require Import Prelude ListFacts QueueModel QueueSpec QueueProofs Traits Contracts ContractFacts BufferedSpec ScramblerModel ScramblerProofs IoModel IoSpec IoProofs
  FuzzModel FuzzIoModel FuzzIoSpec FuzzIoProofs AsyncModel AsyncSpec AsyncProofs AsyncAdaptorModel AsyncAdaptorProofs AsyncIoModel AsyncIoSpec AsyncIoProofs
  AsyncSuspendProofs AsyncIoSuspendProofs JoinModel JoinSpec CorrProofs.
Import ListNotations.
Set Implicit Arguments.
Set Warnings "-abstract-large-number".

Local Arguments received : simpl never.

(** ** Ends of the connection whose environment follows a script *)
Section Ends.
Context {T : Type}.

(** What a task cannot know: everything, or everything but what was sent. *)
Definition env_all (e c : conn T) : conn T := e.
Definition env_but_sent (e c : conn T) : conn T :=
  mk_conn (cn_buf e) (cn_closed c) (cn_sent c) (cn_limits e) (cn_reading e) (cn_writing e) (cn_woken e).

(** Like [conn_wait], but the environment acts with every [Pending], and [give_up] at the end of the script. *)
Fixpoint script_wait {X} (env : conn T -> conn T -> conn T) (now : conn T -> option (conn T * X)) (wait : conn T -> conn T)
    (give_up : conn T -> list (conn T) -> (conn T * list (conn T)) * X) (fuel : nat) : fut (conn T * list (conn T)) X :=
  Fut (fun s =>
    match now (fst s) with
    | Some (c, x) => Ret ((c, snd s), Ready x)
    | None =>
        match fuel, snd s with
        | S fuel, e :: sc => Ret ((env e (wait (fst s)), sc), Pending false (script_wait env now wait give_up fuel))
        | _, _ => let '(s', x) := give_up (fst s) (snd s) in Ret (s', Ready x)
        end
    end).

Definition script_writer (capacity fuel : nat) : a_writer (conn T * list (conn T)) T :=
  mk_a_writer
    (fun data => script_wait env_but_sent (conn_write_now capacity data) conn_await_room (fun c sc => ((c, sc), Ok (length data))) fuel)
    (script_wait env_but_sent conn_flush_now conn_await_room (fun c sc => ((c, sc), Ok tt)) fuel)
    (script_wait env_but_sent conn_close_now conn_await_room (fun c sc => ((c, sc), Ok tt)) fuel).

Fixpoint script_read (buf : list T) (c : conn T) (sc : list (conn T)) : (conn T * list (conn T)) * (list T * res nat io_error) :=
  match sc with
  | [] => ((c, []), (buf, Ok 0))
  | e :: sc =>
      match conn_read_now buf e with
      | Some (e', x) => ((e', sc), x)
      | None => script_read buf e sc
      end
  end.
Definition script_reader (fuel : nat) : a_reader (conn T * list (conn T)) T :=
  mk_a_reader (fun buf => script_wait env_all (conn_read_now buf) conn_await_bytes (script_read buf) fuel).

(** What the reader will read. *)
Fixpoint stream (c : conn T) (sc : list (conn T)) : list T :=
  cn_buf c ++ if cn_closed c then [] else match sc with [] => [] | e :: sc => stream e sc end.

Lemma stream_step : forall c sc,
  stream c sc = cn_buf c ++ if cn_closed c then [] else match sc with [] => [] | e :: sc => stream e sc end.
Proof. intros c [|e sc]; reflexivity. Qed.

Lemma amount_bounds : forall (c : conn T) n, 1 <= n -> 1 <= cn_amount c n <= n.
Proof. intros c n H. unfold cn_amount. destruct (cn_limits c); lia. Qed.

(** *** The writer *)
Lemma script_write_ok : forall capacity (data : list T) fuel s, exists s' n,
  run (aw_write (script_writer capacity fuel) data) s = Ret (s', Ok n) /\ n <= length data /\ (data <> [] -> 1 <= n).
Proof.
  intros capacity data fuel. induction fuel as [|fuel IH]; intros [c sc]; cbn -[conn_write_now] in *; unfold conn_write_now at 1.
  - destruct data as [|d data]; [eexists _, _; split; [reflexivity|]; split; [apply le_n|congruence]|].
    destruct (_ =? 0) eqn:Er; [eexists _, _; split; [reflexivity|]; split; [apply le_n|cbn; lia]|].
    apply Nat.eqb_neq in Er. eexists _, _. split; [reflexivity|].
    match goal with |- context [cn_amount c ?n] => pose proof (@amount_bounds c n) as HA end. cbn [length] in *. split; [|intros _]; lia.
  - destruct data as [|d data]; [eexists _, _; split; [reflexivity|]; split; [apply le_n|congruence]|].
    destruct (_ =? 0) eqn:Er.
    + destruct sc as [|e sc]; [eexists _, _; split; [reflexivity|]; split; [apply le_n|cbn; lia]|]. apply IH.
    + apply Nat.eqb_neq in Er. eexists _, _. split; [reflexivity|].
      match goal with |- context [cn_amount c ?n] => pose proof (@amount_bounds c n) as HA end. cbn [length] in *. split; [|intros _]; lia.
Qed.

Lemma script_writer_works : forall capacity fuel, working_writer (blocking_writer (script_writer capacity fuel)).
Proof.
  intros capacity fuel.
  assert (HF : forall s, run (aw_flush (script_writer capacity fuel)) s = Ret (s, Ok tt)) by (intros [c sc]; destruct fuel; reflexivity).
  assert (HC : forall s, exists s', run (aw_close (script_writer capacity fuel)) s = Ret (s', Ok tt)) by (intros [c sc]; destruct fuel; eexists; reflexivity).
  constructor; [constructor|..]; cbn [blocking_writer w_write w_flush w_close].
  - intros s buf. destruct (script_write_ok capacity buf fuel s) as (s' & n & E & H1 & H2). eauto.
  - intros s. eauto.
  - intros s. destruct (HC s) as (s' & E). eauto.
  - intros s buf Hb. destruct (script_write_ok capacity buf fuel s) as (s' & n & E & H1 & H2). exists s', n. auto.
  - intros s. eauto.
  - exact HC.
Qed.

(** *** The reader *)
Lemma read_now_spec : forall (buf : list T) c, buf <> [] ->
  match conn_read_now buf c with
  | Some (c', (buf', r)) => exists n, r = Ok n /\ buf' = firstn n (cn_buf c) ++ skipn n buf /\ n <= length buf /\ n <= length (cn_buf c) /\
      (cn_buf c <> [] -> 1 <= n) /\ cn_buf c' = skipn n (cn_buf c) /\ cn_closed c' = cn_closed c /\ (cn_buf c = [] -> cn_closed c = true)
  | None => cn_buf c = [] /\ cn_closed c = false
  end.
Proof.
  intros [|b0 buf] c Hb; [congruence|]. unfold conn_read_now. destruct (cn_buf c) as [|x xs] eqn:Ec.
  - destruct (cn_closed c) eqn:Ed; [|auto]. exists 0. cbn. rewrite Ec. splits; auto; lia || congruence.
  - match goal with |- context [cn_amount c ?n] => pose proof (@amount_bounds c n) as HA; set (m := cn_amount c n) in * end.
    exists m. cbn [cn_buf cn_closed]. cbn [length] in *. splits; auto; try lia. discriminate.
Qed.

Definition read_well (buf bs : list T) (o : outcome ((conn T * list (conn T)) * (list T * res nat io_error))) : Prop :=
  exists c' sc' n, o = Ret ((c', sc'), (firstn n bs ++ skipn n buf, Ok n)) /\ n <= length buf /\ n <= length bs /\
    (bs <> [] -> 1 <= n) /\ stream c' sc' = skipn n bs.

Lemma read_now_well : forall (buf : list T) c sc, buf <> [] ->
  match conn_read_now buf c with
  | Some (c', x) => read_well buf (stream c sc) (Ret ((c', sc), x))
  | None => stream c sc = match sc with [] => [] | e :: sc => stream e sc end
  end.
Proof.
  intros buf c sc Hb. pose proof (@read_now_spec buf c Hb) as H. destruct (conn_read_now buf c) as [[c' [buf' r]]|].
  - destruct H as (n & -> & -> & H1 & H2 & H3 & H4 & H5 & H6). exists c', sc, n.
    rewrite (stream_step c sc), (stream_step c' sc), H4, H5. rewrite firstn_app, skipn_app.
    replace (n - length (cn_buf c)) with 0 by lia. cbn [firstn skipn]. rewrite app_nil_r. split; [reflexivity|].
    rewrite app_length. split; [exact H1|]. split; [lia|]. split; [|reflexivity].
    intros HN. destruct (cn_buf c) eqn:Ec; [|apply H3; discriminate]. rewrite (H6 eq_refl) in HN. contradiction.
  - destruct H as [H1 H2]. now rewrite stream_step, H1, H2.
Qed.

Lemma script_read_well : forall (buf : list T) sc c, buf <> [] ->
  match sc with [] => True | e :: sc' => read_well buf (stream e sc') (Ret (script_read buf c sc)) end.
Proof.
  intros buf. induction sc as [|e sc IH]; intros c Hb; [exact Logic.I|]. cbn [script_read].
  pose proof (@read_now_well buf e sc Hb) as H. destruct (conn_read_now buf e) as [[e' x]|]; [exact H|]. rewrite H.
  destruct sc as [|e1 sc]; [|exact (IH e Hb)]. exists e, [], 0. cbn [script_read firstn skipn app].
  split; [reflexivity|]. split; [lia|]. split; [apply Nat.le_0_l|]. split; [congruence|]. now rewrite H.
Qed.

Lemma script_reads : forall fuel (buf : list T) c sc, buf <> [] -> read_well buf (stream c sc) (run (ar_read (script_reader fuel) buf) (c, sc)).
Proof.
  intros fuel buf. induction fuel as [|fuel IH]; intros c sc Hb; cbn -[conn_read_now script_read] in *.
  - pose proof (@read_now_well buf c sc Hb) as H. destruct (conn_read_now buf c) as [[c' x]|]; [exact H|].
    pose proof (@script_read_well buf sc c Hb) as HS. destruct sc as [|e sc].
    + rewrite H. exists c, [], 0. cbn [script_read firstn skipn app]. split; [reflexivity|]. split; [lia|]. split; [apply Nat.le_0_l|]. split; [congruence|]. now rewrite H.
    + rewrite H. destruct (script_read buf c (e :: sc)) as [s' x]. exact HS.
  - pose proof (@read_now_well buf c sc Hb) as H. destruct (conn_read_now buf c) as [[c' x]|]; [exact H|]. rewrite H.
    destruct sc as [|e sc]; [|exact (IH e sc Hb)].
    exists c, [], 0. cbn [script_read firstn skipn app]. split; [reflexivity|]. split; [lia|]. split; [apply Nat.le_0_l|]. split; [congruence|]. now rewrite H.
Qed.

Definition script_R (s : conn T * list (conn T)) (bs : list T) (l : res unit io_error) : Prop := stream (fst s) (snd s) = bs /\ l = Ok tt.

Lemma script_reader_lawful : forall fuel, lawful_reader (blocking_reader (script_reader fuel)) script_R.
Proof.
  intros fuel. constructor; cbn [blocking_reader r_read].
  - intros [c sc] bs l buf [H ->] Hbs Hb. cbn in H. destruct (@script_reads fuel buf c sc Hb) as (c' & sc' & n & E & H1 & H2 & H3 & H4).
    rewrite H in *. exists (c', sc'), n. split; [exact E|]. split; [auto|]. split; [exact H2|]. split; [exact H4|reflexivity].
  - intros [c sc] buf [H _] Hb. cbn in H. destruct (@script_reads fuel buf c sc Hb) as (c' & sc' & n & E & H1 & H2 & H3 & H4).
    rewrite H in *. cbn in H2. assert (n = 0) by lia. subst n. eauto.
  - intros s buf e [_ H]. discriminate.
Qed.
End Ends.

(** *** The buffered reader *)
Section Buffered.
  Context {S T : Type} (Rd : a_reader S T) (R : S -> list T -> res unit io_error -> Prop) (x0 : T) (capacity : nat).
  Context (L : lawful_reader (blocking_reader Rd) R) (Hcap : 1 <= capacity).
  (** At the end, it stays at the end. *)
  Context (St : forall s l buf s' r, R s [] l -> buf <> [] -> r_read (blocking_reader Rd) buf s = Ret (s', r) -> R s' [] l).

  Definition bufd_R (s : br S T) (bs : list T) (l : res unit io_error) (k : nat) : Prop :=
    exists more, bs = br_rest s ++ more /\ R (br_inner s) more l /\ k <= length (br_rest s).

  Lemma run_a_br : forall X (f : fut S X) (s : br S T),
    run (a_br f) s = let* (i, x) := run f (br_inner s) in Ret (mk_br i (br_rest s), x).
  Proof. intros. unfold a_br. now rewrite run_within. Qed.

  Lemma repeat_not_nil : repeat x0 capacity <> [].
  Proof. destruct capacity; [lia|discriminate]. Qed.

  Lemma br_fill : forall s bs l k, bufd_R s bs l k -> bs <> [] ->
    exists s' ys rest, run (br_fill_buf Rd x0 capacity) s = Ret (s', Ok ys) /\ ys <> [] /\ bs = ys ++ rest /\ k <= length ys /\
      br_rest s' = ys /\ bufd_R s' bs l (length ys).
  Proof.
    intros [i rest] bs l k (more & E & HR & Hk) Hb. cbn [br_inner br_rest] in *. unfold br_fill_buf. rewrite run_await, run_get. cbn [bind br_rest].
    destruct rest as [|y rest].
    - cbn in E. subst bs. destruct (lr_read L (repeat x0 capacity) HR Hb repeat_not_nil) as (i' & n & E1 & Hn & Hn' & HR').
      rewrite run_await, run_a_br. cbn [blocking_reader r_read] in E1. cbn [br_inner]. rewrite E1. cbn [bind br_rest]. rewrite run_await, run_sync. cbn [bind]. rewrite run_ret.
      cbn [br_inner].
      assert (HF : firstn n (firstn n more ++ skipn n (repeat x0 capacity)) = firstn n more).
      { rewrite firstn_app, firstn_firstn, Nat.min_id, firstn_length. replace (n - Nat.min n (length more)) with 0 by lia. cbn. apply app_nil_r. }
      rewrite HF. eexists _, (firstn n more), (skipn n more). split; [reflexivity|].
      assert (HL : length (firstn n more) = n) by (rewrite firstn_length; lia).
      split; [intros HN; rewrite HN in HL; cbn in HL; lia|]. split; [symmetry; apply firstn_skipn|]. split; [cbn in Hk; lia|]. split; [reflexivity|].
      exists (skipn n more). cbn [br_rest br_inner]. split; [symmetry; apply firstn_skipn|]. split; [exact HR'|lia].
    - eexists _, (y :: rest), more. split; [reflexivity|]. split; [discriminate|]. split; [exact E|]. split; [exact Hk|]. split; [reflexivity|].
      exists more. auto.
  Qed.

  Lemma br_fill_end : forall s l k, bufd_R s [] l k ->
    exists s', run (br_fill_buf Rd x0 capacity) s = Ret (s', match l with Ok _ => Ok [] | Err e => Err e end) /\ br_rest s' = [] /\ bufd_R s' [] l 0.
  Proof.
    intros [i rest] l k (more & E & HR & Hk). cbn [br_inner br_rest] in *. symmetry in E. apply app_eq_nil in E as [-> ->].
    unfold br_fill_buf. rewrite run_await, run_get. cbn [bind br_rest]. rewrite run_await, run_a_br. cbn [br_inner].
    destruct l as [[]|e].
    - destruct (lr_read_eof L (repeat x0 capacity) HR repeat_not_nil) as (i' & E1).
      pose proof (@St _ _ _ _ _ HR repeat_not_nil E1) as HR'. cbn [blocking_reader r_read] in E1. rewrite E1. cbn [bind br_rest].
      rewrite run_await, run_sync. cbn [bind firstn]. eexists. split; [reflexivity|]. split; [reflexivity|]. exists []. cbn. auto.
    - destruct (lr_read_err L (repeat x0 capacity) HR repeat_not_nil) as (i' & E1).
      pose proof (@St _ _ _ _ _ HR repeat_not_nil E1) as HR'. cbn [blocking_reader r_read] in E1. rewrite E1. cbn [bind br_rest].
      eexists. split; [reflexivity|]. split; [reflexivity|]. exists []. cbn. auto.
  Qed.

  Lemma buffered_reader_lawful : lawful_buf_reader (blocking_buf_reader (buffered_reader Rd x0 capacity)) bufd_R.
  Proof.
    assert (HG : forall dest s, run (br_read Rd x0 capacity dest) s =
      if match br_rest s with [] => capacity <=? length dest | _ => false end
      then (let* (i, x) := run (ar_read Rd dest) (br_inner s) in Ret (mk_br i (br_rest s), x))
      else let* (s, r) := run (br_fill_buf Rd x0 capacity) s in
           match r with
           | Err e => Ret (s, (dest, Err e))
           | Ok rest => let n := Nat.min (length rest) (length dest) in
                        Ret (mk_br (br_inner s) (skipn n (br_rest s)), (firstn n rest ++ skipn n dest, Ok n))
           end).
    { intros dest s. unfold br_read. rewrite run_await, run_get. cbn [bind].
      match goal with |- context [if ?b then _ else _] => destruct b end; [apply run_a_br|]. rewrite run_await.
      destruct (run (br_fill_buf Rd x0 capacity) s) as [[s' [rest|e]]| |]; reflexivity. }
    constructor; cbn [blocking_buf_reader blocking_reader r_read r_reader r_fill_buf r_consume buffered_reader ar_read ar_reader ar_fill_buf ar_consume].
    - intros s bs l k (more & -> & _ & H). rewrite app_length. lia.
    - intros s bs l k k' (more & E & HR & H) Hk. exists more. split; [exact E|]. split; [exact HR|lia].
    - intros s bs l k buf H Hbs Hb. rewrite HG. destruct (match br_rest s with [] => capacity <=? length buf | _ => false end) eqn:Eb.
      + destruct s as [i [|y rest]]; cbn [br_rest br_inner] in *; [|discriminate]. destruct H as (more & E & HR & Hk). cbn in E, HR, Hk. subst more.
        destruct (lr_read L buf HR Hbs Hb) as (i' & n & E1 & Hn & Hn' & HR'). cbn [blocking_reader r_read] in E1. rewrite E1. cbn [bind].
        eexists _, n. split; [reflexivity|]. split; [exact Hn|]. split; [exact Hn'|]. exists (skipn n bs). cbn. split; [reflexivity|]. split; [exact HR'|lia].
      + destruct (@br_fill s bs l k H Hbs) as (s' & ys & rest & E1 & Hy & E2 & Hk & Hr & (more & E3 & HR & _)). rewrite E1. cbn [bind]. cbv zeta.
        set (n := Nat.min (length ys) (length buf)).
        assert (1 <= n) by (destruct ys; [congruence|]; destruct buf; [congruence|]; unfold n; cbn; lia).
        assert (n <= length ys) by (unfold n; lia).
        rewrite Hr in *. assert (HF : firstn n ys = firstn n bs).
        { rewrite E2, firstn_app. replace (n - length ys) with 0 by lia. cbn. symmetry. apply app_nil_r. }
        rewrite HF. eexists _, n. split; [reflexivity|]. split; [unfold n in *; lia|]. split; [rewrite E2, app_length; lia|].
        exists more. cbn [br_rest br_inner]. split; [|split; [exact HR|rewrite skipn_length; lia]].
        rewrite E3, skipn_app. replace (n - length ys) with 0 by lia. reflexivity.
    - intros s buf k H Hb. rewrite HG. destruct (match br_rest s with [] => capacity <=? length buf | _ => false end) eqn:Eb.
      + destruct H as (more & E & HR & Hk). symmetry in E. apply app_eq_nil in E as [_ ->].
        destruct (lr_read_eof L buf HR Hb) as (i' & E1). cbn [blocking_reader r_read] in E1. rewrite E1. cbn [bind]. eauto.
      + destruct (@br_fill_end s _ k H) as (s' & E1 & _ & _). rewrite E1. cbn [bind length Nat.min firstn skipn app]. eauto.
    - intros s buf e k H Hb. rewrite HG. destruct (match br_rest s with [] => capacity <=? length buf | _ => false end) eqn:Eb.
      + destruct H as (more & E & HR & Hk). symmetry in E. apply app_eq_nil in E as [_ ->].
        destruct (lr_read_err L buf HR Hb) as (i' & E1). cbn [blocking_reader r_read] in E1. rewrite E1. cbn [bind]. eauto.
      + destruct (@br_fill_end s _ k H) as (s' & E1 & _ & _). rewrite E1. cbn [bind]. eauto.
    - intros s bs l k H Hbs. destruct (@br_fill s bs l k H Hbs) as (s' & ys & rest & E1 & Hy & E2 & Hk & Hr & HR). eauto 10.
    - intros s k H. destruct (@br_fill_end s _ k H) as (s' & E1 & _ & HR). eauto.
    - intros s e k H. destruct (@br_fill_end s _ k H) as (s' & E1 & _ & HR). eauto.
    - intros s bs l k n (more & E & HR & Hk) Hn. eexists. split; [reflexivity|]. exists more. cbn [br_rest br_inner].
      split; [|split; [exact HR|rewrite skipn_length; lia]]. rewrite E, skipn_app. replace (n - length (br_rest s)) with 0 by lia. reflexivity.
  Qed.
End Buffered.

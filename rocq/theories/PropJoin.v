(** Property C84: the fuzz targets that send bytes over a connection, with both tasks running concurrently. *)
From Coq Require Import Bool List Arith Lia.
From Verif Require Import Prelude ListFacts QueueModel Traits ScramblerModel IoModel IoSpec FuzzModel FuzzIoModel AsyncModel AsyncSpec AsyncIoModel AsyncIoSpec
  JoinModel JoinSpec CorrProofs JoinProofs JoinTaskProofs JoinRunProofs JoinDebugProofs.
Import ListNotations.
Set Warnings "-abstract-large-number".

(** *** C84. [capacity]: how many bytes the connection holds; [limits]: how many bytes it moves per call; [wait]: fuel for waiting. *)

(** Whatever the order in which the two tasks are polled: no assertion fails, what is sent is a prefix of the input. Once both have been polled alternately often enough, both are
    done. *)
Theorem C84_compat_any_order :
  forall dbg fuel wait capacity limits input scap rcap consume_ops produce_ops schedule,
  1 <= capacity -> (dbg = true -> length input <= scrambler_capacity) ->
  (forall n, In (ScConsumeSlots n) consume_ops -> 1 <= n) -> (forall n, In (ScConsiderProduced n) produce_ops -> 1 <= n) ->
  Datatypes.S scrambler_capacity * Datatypes.S (length consume_ops) <= fuel ->
  Datatypes.S scrambler_capacity * Datatypes.S (length produce_ops) <= fuel ->
  length schedule <= wait ->
  exists j, exec receiver_holds sender_holds schedule
      (mk_joint (conn_new limits) (compat_receive dbg fuel wait input rcap produce_ops) (compat_send dbg fuel wait capacity input scap consume_ops)) = Ret j /\
    sound_joint capacity input j /\ (length input + 2 <= rounds false schedule -> both_done j = true).
Proof.
  intros dbg fuel wait capacity limits input scap rcap cops pops schedule Hcap Hroom Hn Hp Hf Hfp Hl.
  refine (@runs_safely nat 0 capacity Hcap input _ _ _ _ receiver_holds receiver_view (fun _ _ => eq_refl) (fun _ => eq_refl) (fun _ _ => eq_refl) sender_holds sender_view sender_log_view
    sender_set sender_conn sender_end sender_rel sender_log_refl wait _ _ _ _ limits schedule Hl); [eapply receiver_good; eauto|now apply compat_send_good].
Qed.
Print Assumptions C84_compat_any_order.

Theorem C84_compat_buf_read_any_order :
  forall dbg fuel wait capacity limits buf_capacity input scap consume_ops produce_ops schedule,
  1 <= capacity -> 1 <= buf_capacity -> (dbg = true -> length input <= scrambler_capacity) ->
  (forall n, In (ScConsumeSlots n) consume_ops -> 1 <= n) -> (forall n, In (ScConsiderProduced n) produce_ops -> 1 <= n) ->
  Datatypes.S scrambler_capacity * Datatypes.S (length consume_ops) <= fuel ->
  Datatypes.S scrambler_capacity * Datatypes.S (length produce_ops) <= fuel ->
  length schedule <= wait ->
  exists j, exec buf_receiver_holds sender_holds schedule
      (mk_joint (conn_new limits) (compat_buf_receive dbg fuel wait buf_capacity input produce_ops) (compat_send dbg fuel wait capacity input scap consume_ops)) = Ret j /\
    sound_joint capacity input j /\ (length input + 2 <= rounds false schedule -> both_done j = true).
Proof.
  intros dbg fuel wait capacity limits bcap input scap cops pops schedule Hcap Hb Hroom Hn Hp Hf Hfp Hl.
  refine (@runs_safely nat 0 capacity Hcap input _ _ _ _ buf_receiver_holds buf_receiver_view (fun _ _ => eq_refl) (fun _ => eq_refl) (fun _ _ => eq_refl) sender_holds sender_view sender_log_view
    sender_set sender_conn sender_end sender_rel sender_log_refl wait _ _ _ _ limits schedule Hl); [eapply buf_receiver_good; eauto|now apply compat_send_good].
Qed.
Print Assumptions C84_compat_buf_read_any_order.

(** [block_on(join!(receive, send))] returns after at most [length input + 2] polls; no wake-up gets lost. *)
Theorem C84_compat_block_on :
  forall dbg fuel wait capacity limits input scap rcap consume_ops produce_ops polls,
  1 <= capacity -> (dbg = true -> length input <= scrambler_capacity) ->
  (forall n, In (ScConsumeSlots n) consume_ops -> 1 <= n) -> (forall n, In (ScConsiderProduced n) produce_ops -> 1 <= n) ->
  Datatypes.S scrambler_capacity * Datatypes.S (length consume_ops) <= fuel ->
  Datatypes.S scrambler_capacity * Datatypes.S (length produce_ops) <= fuel ->
  length input + 2 <= polls <= wait ->
  exists j, block_on_join receiver_holds sender_holds polls
      (mk_joint (conn_new limits) (compat_receive dbg fuel wait input rcap produce_ops) (compat_send dbg fuel wait capacity input scap consume_ops)) = Ret j /\
    both_done j = true /\ sound_joint capacity input j.
Proof.
  intros dbg fuel wait capacity limits input scap rcap cops pops polls Hcap Hroom Hn Hp Hf Hfp Hl.
  refine (@blocks_until_done nat 0 capacity Hcap input _ _ _ _ receiver_holds receiver_view (fun _ _ => eq_refl) (fun _ => eq_refl) (fun _ _ => eq_refl) sender_holds sender_view sender_log_view
    sender_set sender_conn sender_end sender_rel sender_log_refl wait _ _ _ _ limits polls Hl); [eapply receiver_good; eauto|now apply compat_send_good].
Qed.
Print Assumptions C84_compat_block_on.

Theorem C84_compat_buf_read_block_on :
  forall dbg fuel wait capacity limits buf_capacity input scap consume_ops produce_ops polls,
  1 <= capacity -> 1 <= buf_capacity -> (dbg = true -> length input <= scrambler_capacity) ->
  (forall n, In (ScConsumeSlots n) consume_ops -> 1 <= n) -> (forall n, In (ScConsiderProduced n) produce_ops -> 1 <= n) ->
  Datatypes.S scrambler_capacity * Datatypes.S (length consume_ops) <= fuel ->
  Datatypes.S scrambler_capacity * Datatypes.S (length produce_ops) <= fuel ->
  length input + 2 <= polls <= wait ->
  exists j, block_on_join buf_receiver_holds sender_holds polls
      (mk_joint (conn_new limits) (compat_buf_receive dbg fuel wait buf_capacity input produce_ops) (compat_send dbg fuel wait capacity input scap consume_ops)) = Ret j /\
    both_done j = true /\ sound_joint capacity input j.
Proof.
  intros dbg fuel wait capacity limits bcap input scap cops pops polls Hcap Hb Hroom Hn Hp Hf Hfp Hl.
  refine (@blocks_until_done nat 0 capacity Hcap input _ _ _ _ buf_receiver_holds buf_receiver_view (fun _ _ => eq_refl) (fun _ => eq_refl) (fun _ _ => eq_refl) sender_holds sender_view sender_log_view
    sender_set sender_conn sender_end sender_rel sender_log_refl wait _ _ _ _ limits polls Hl); [eapply buf_receiver_good; eauto|now apply compat_send_good].
Qed.
Print Assumptions C84_compat_buf_read_block_on.

(** Handed to an executor separately, both tasks finish after at most [2 * length input + 5] polls: whichever ready task it polls, a task that waits is woken when it
    can go on. *)
Theorem C84_compat_spawned :
  forall dbg fuel wait capacity limits input scap rcap consume_ops produce_ops prefer,
  1 <= capacity -> (dbg = true -> length input <= scrambler_capacity) ->
  (forall n, In (ScConsumeSlots n) consume_ops -> 1 <= n) -> (forall n, In (ScConsiderProduced n) produce_ops -> 1 <= n) ->
  Datatypes.S scrambler_capacity * Datatypes.S (length consume_ops) <= fuel ->
  Datatypes.S scrambler_capacity * Datatypes.S (length produce_ops) <= fuel ->
  2 * length input + 5 <= length prefer <= wait ->
  exists j ready, spawned receiver_holds sender_holds prefer true true
      (mk_joint (conn_new limits) (compat_receive dbg fuel wait input rcap produce_ops) (compat_send dbg fuel wait capacity input scap consume_ops)) = Ret (j, ready) /\
    both_done j = true /\ sound_joint capacity input j.
Proof.
  intros dbg fuel wait capacity limits input scap rcap cops pops prefer Hcap Hroom Hn Hp Hf Hfp Hl.
  refine (@spawned_until_done nat 0 capacity Hcap input _ _ _ _ receiver_holds receiver_view (fun _ _ => eq_refl) (fun _ => eq_refl) (fun _ _ => eq_refl) sender_holds sender_view sender_log_view
    sender_set sender_conn sender_end sender_rel sender_log_refl wait _ _ _ _ limits prefer Hl); [eapply receiver_good; eauto|now apply compat_send_good].
Qed.
Print Assumptions C84_compat_spawned.

Theorem C84_compat_buf_read_spawned :
  forall dbg fuel wait capacity limits buf_capacity input scap consume_ops produce_ops prefer,
  1 <= capacity -> 1 <= buf_capacity -> (dbg = true -> length input <= scrambler_capacity) ->
  (forall n, In (ScConsumeSlots n) consume_ops -> 1 <= n) -> (forall n, In (ScConsiderProduced n) produce_ops -> 1 <= n) ->
  Datatypes.S scrambler_capacity * Datatypes.S (length consume_ops) <= fuel ->
  Datatypes.S scrambler_capacity * Datatypes.S (length produce_ops) <= fuel ->
  2 * length input + 5 <= length prefer <= wait ->
  exists j ready, spawned buf_receiver_holds sender_holds prefer true true
      (mk_joint (conn_new limits) (compat_buf_receive dbg fuel wait buf_capacity input produce_ops) (compat_send dbg fuel wait capacity input scap consume_ops)) = Ret (j, ready) /\
    both_done j = true /\ sound_joint capacity input j.
Proof.
  intros dbg fuel wait capacity limits bcap input scap cops pops prefer Hcap Hb Hroom Hn Hp Hf Hfp Hl.
  refine (@spawned_until_done nat 0 capacity Hcap input _ _ _ _ buf_receiver_holds buf_receiver_view (fun _ _ => eq_refl) (fun _ => eq_refl) (fun _ _ => eq_refl) sender_holds sender_view sender_log_view
    sender_set sender_conn sender_end sender_rel sender_log_refl wait _ _ _ _ limits prefer Hl); [eapply buf_receiver_good; eauto|now apply compat_send_good].
Qed.
Print Assumptions C84_compat_buf_read_spawned.

(** With debug assertions and more than 2048 bytes: whatever the order in which the tasks are polled, what is sent is a prefix of the input, neither task finishes, and the sender
    panics once both have been polled alternately often enough. *)
Theorem C84_compat_debug :
  forall fuel wait capacity limits input scap rcap consume_ops produce_ops,
  1 <= capacity -> scrambler_capacity < length input ->
  (forall n, In (ScConsumeSlots n) consume_ops -> 1 <= n) -> (forall n, In (ScConsiderProduced n) produce_ops -> 1 <= n) ->
  Datatypes.S scrambler_capacity * Datatypes.S (length consume_ops) <= fuel ->
  Datatypes.S scrambler_capacity * Datatypes.S (length produce_ops) <= fuel ->
  let start := mk_joint (conn_new limits) (compat_receive true fuel wait input rcap produce_ops) (compat_send true fuel wait capacity input scap consume_ops) in
  (forall schedule, length schedule <= wait ->
     exec receiver_holds sender_holds schedule start = Panic \/
     (exists j, exec receiver_holds sender_holds schedule start = Ret j /\ sound_joint capacity input j /\ j_send j <> Done) /\
       rounds false schedule < length input + 2) /\
  (forall polls, length input + 2 <= polls <= wait -> block_on_join receiver_holds sender_holds polls start = Panic) /\
  (forall prefer, 2 * length input + 5 <= length prefer <= wait -> spawned receiver_holds sender_holds prefer true true start = Panic).
Proof.
  intros fuel wait capacity limits input scap rcap cops pops Hcap Hlen Hn Hp Hf Hfp start.
  pose proof (@receiver_good true fuel wait input rcap pops Hp Hfp) as Hr.
  pose proof (@compat_send_good false fuel wait capacity Hcap input (fun H => False_ind _ (diff_false_true H)) scap cops Hn Hf) as Hs.
  pose proof (@compat_send_doomed fuel wait capacity input scap cops Hlen Hn Hf) as Hd.
  split; [|split].
  - intros schedule Hl. exact (@exec_doomed nat 0 capacity Hcap input _ _ _ _ receiver_holds receiver_view (fun _ _ => eq_refl) (fun _ => eq_refl) (fun _ _ => eq_refl)
      sender_holds sender_view sender_log_view sender_set sender_conn sender_end sender_rel sender_log_refl wait (compat_receive true fuel wait input rcap pops)
      (compat_send true fuel wait capacity input scap cops) (compat_send false fuel wait capacity input scap cops) Hr Hs Hd limits schedule Hl).
  - intros polls Hl. exact (@block_on_doomed nat 0 capacity Hcap input _ _ _ _ receiver_holds receiver_view (fun _ _ => eq_refl) (fun _ => eq_refl) (fun _ _ => eq_refl)
      sender_holds sender_view sender_log_view sender_set sender_conn sender_end sender_rel sender_log_refl wait (compat_receive true fuel wait input rcap pops)
      (compat_send true fuel wait capacity input scap cops) (compat_send false fuel wait capacity input scap cops) Hr Hs Hd limits polls Hl).
  - intros prefer Hl. exact (@spawned_doomed nat 0 capacity Hcap input _ _ _ _ receiver_holds receiver_view (fun _ _ => eq_refl) (fun _ => eq_refl) (fun _ _ => eq_refl)
      sender_holds sender_view sender_log_view sender_set sender_conn sender_end sender_rel sender_log_refl wait (compat_receive true fuel wait input rcap pops)
      (compat_send true fuel wait capacity input scap cops) (compat_send false fuel wait capacity input scap cops) Hr Hs Hd limits prefer Hl).
Qed.
Print Assumptions C84_compat_debug.

Theorem C84_compat_buf_read_debug :
  forall fuel wait capacity limits buf_capacity input scap consume_ops produce_ops,
  1 <= capacity -> 1 <= buf_capacity -> scrambler_capacity < length input ->
  (forall n, In (ScConsumeSlots n) consume_ops -> 1 <= n) -> (forall n, In (ScConsiderProduced n) produce_ops -> 1 <= n) ->
  Datatypes.S scrambler_capacity * Datatypes.S (length consume_ops) <= fuel ->
  Datatypes.S scrambler_capacity * Datatypes.S (length produce_ops) <= fuel ->
  let start := mk_joint (conn_new limits) (compat_buf_receive true fuel wait buf_capacity input produce_ops) (compat_send true fuel wait capacity input scap consume_ops) in
  (forall schedule, length schedule <= wait ->
     exec buf_receiver_holds sender_holds schedule start = Panic \/
     (exists j, exec buf_receiver_holds sender_holds schedule start = Ret j /\ sound_joint capacity input j /\ j_send j <> Done) /\
       rounds false schedule < length input + 2) /\
  (forall polls, length input + 2 <= polls <= wait -> block_on_join buf_receiver_holds sender_holds polls start = Panic) /\
  (forall prefer, 2 * length input + 5 <= length prefer <= wait -> spawned buf_receiver_holds sender_holds prefer true true start = Panic).
Proof.
  intros fuel wait capacity limits bcap input scap cops pops Hcap Hb Hlen Hn Hp Hf Hfp start.
  pose proof (@buf_receiver_good true fuel wait input bcap pops Hb Hp Hfp) as Hr.
  pose proof (@compat_send_good false fuel wait capacity Hcap input (fun H => False_ind _ (diff_false_true H)) scap cops Hn Hf) as Hs.
  pose proof (@compat_send_doomed fuel wait capacity input scap cops Hlen Hn Hf) as Hd.
  split; [|split].
  - intros schedule Hl. exact (@exec_doomed nat 0 capacity Hcap input _ _ _ _ buf_receiver_holds buf_receiver_view (fun _ _ => eq_refl) (fun _ => eq_refl) (fun _ _ => eq_refl)
      sender_holds sender_view sender_log_view sender_set sender_conn sender_end sender_rel sender_log_refl wait (compat_buf_receive true fuel wait bcap input pops)
      (compat_send true fuel wait capacity input scap cops) (compat_send false fuel wait capacity input scap cops) Hr Hs Hd limits schedule Hl).
  - intros polls Hl. exact (@block_on_doomed nat 0 capacity Hcap input _ _ _ _ buf_receiver_holds buf_receiver_view (fun _ _ => eq_refl) (fun _ => eq_refl) (fun _ _ => eq_refl)
      sender_holds sender_view sender_log_view sender_set sender_conn sender_end sender_rel sender_log_refl wait (compat_buf_receive true fuel wait bcap input pops)
      (compat_send true fuel wait capacity input scap cops) (compat_send false fuel wait capacity input scap cops) Hr Hs Hd limits polls Hl).
  - intros prefer Hl. exact (@spawned_doomed nat 0 capacity Hcap input _ _ _ _ buf_receiver_holds buf_receiver_view (fun _ _ => eq_refl) (fun _ => eq_refl) (fun _ _ => eq_refl)
      sender_holds sender_view sender_log_view sender_set sender_conn sender_end sender_rel sender_log_refl wait (compat_buf_receive true fuel wait bcap input pops)
      (compat_send true fuel wait capacity input scap cops) (compat_send false fuel wait capacity input scap cops) Hr Hs Hd limits prefer Hl).
Qed.
Print Assumptions C84_compat_buf_read_debug.

(** The reader that buffers is lawful if the reader inside is and stays at its end. *)
Theorem C84_buffered_reader_lawful :
  forall (S T : Type) (Rd : a_reader S T) R (x0 : T) capacity,
  lawful_reader (blocking_reader Rd) R -> 1 <= capacity ->
  (forall s l buf s' r, R s [] l -> buf <> [] -> r_read (blocking_reader Rd) buf s = Ret (s', r) -> R s' [] l) ->
  exists R', lawful_buf_reader (blocking_buf_reader (buffered_reader Rd x0 capacity)) R' /\
    (forall s bs l, R s bs l -> R' (mk_br s []) bs l 0).
Proof.
  intros S T Rd R x0 capacity L Hc St. exists (bufd_R R). split; [exact (buffered_reader_lawful x0 L Hc St)|].
  intros s bs l H. exists bs. cbn. auto.
Qed.
Print Assumptions C84_buffered_reader_lawful.

(** What can be seen of the tasks. *)
Definition see {SR SS} (o : outcome (joint nat SR SS)) : outcome (bool * list nat * list nat * bool) :=
  let* j := o in Ret (both_done j, cn_sent (j_conn j), cn_buf (j_conn j), cn_closed (j_conn j)).
Definition ex_start (capacity : nat) :=
  mk_joint (T := nat) (conn_new [1; 2]) (compat_receive false 6147 10 [5; 6; 7] 3 [ScSlurp; ScConsiderProduced 2])
    (compat_send false 6147 10 capacity [5; 6; 7] 2 [ScFlush; ScConsumeSlots 1]).
Definition ex_buf_start (capacity : nat) :=
  mk_joint (T := nat) (conn_new [1; 2]) (compat_buf_receive false 6147 10 2 [5; 6; 7] [ScSlurp; ScProduce])
    (compat_send false 6147 10 capacity [5; 6; 7] 2 [ScFlush; ScConsume]).

(** A connection that holds a single byte suffices. *)
Example C84_compat_block_on_ex : see (block_on_join receiver_holds sender_holds 5 (ex_start 1)) = Ret (true, [5; 6; 7], [], true).
Proof. vm_compute. reflexivity. Qed.
Example C84_compat_buf_read_block_on_ex : see (block_on_join buf_receiver_holds sender_holds 5 (ex_buf_start 2)) = Ret (true, [5; 6; 7], [], true).
Proof. vm_compute. reflexivity. Qed.

(** The sender alone gets stuck, in whatever order the tasks are polled before and after. *)
Example C84_compat_any_order_ex :
  see (exec receiver_holds sender_holds [Send; Send; Send; Send] (ex_start 2)) = Ret (false, [5; 6], [5; 6], false) /\
  see (exec receiver_holds sender_holds [Send; Send; Receive; Receive; Send; Receive] (ex_start 2)) = Ret (true, [5; 6; 7], [], true).
Proof. split; vm_compute; reflexivity. Qed.
Example C84_compat_buf_read_any_order_ex :
  see (exec buf_receiver_holds sender_holds [Receive; Send; Receive; Receive] (ex_buf_start 2)) = Ret (false, [5; 6], [], false) /\
  see (exec buf_receiver_holds sender_holds [Receive; Send; Receive; Send; Receive] (ex_buf_start 2)) = Ret (true, [5; 6; 7], [], true).
Proof. split; vm_compute; reflexivity. Qed.

(** The tasks alternate; which goes first is up to the executor. *)
Definition ex_long (capacity : nat) :=
  mk_joint (T := nat) (conn_new [1; 2]) (compat_receive false 6147 20 [5; 6; 7] 3 [ScSlurp; ScConsiderProduced 2])
    (compat_send false 6147 20 capacity [5; 6; 7] 2 [ScFlush; ScConsumeSlots 1]).
Example C84_compat_spawned_ex :
  see (let* (j, ready) := spawned receiver_holds sender_holds (repeat Send 11) true true (ex_long 1) in Ret j) = Ret (true, [5; 6; 7], [], true) /\
  see (let* (j, ready) := spawned receiver_holds sender_holds (repeat Receive 11) true true (ex_long 1) in Ret j) = Ret (true, [5; 6; 7], [], true) /\
  see (let* (j, ready) := spawned receiver_holds sender_holds (repeat Receive 5) true true (ex_long 1) in Ret j) = Ret (false, [5; 6], [], false).
Proof. splits; vm_compute; reflexivity. Qed.

(** The hypotheses hold: here for the example above. *)
Example C84_hypotheses_ex :
  1 <= 1 /\ (forall n, In (ScConsumeSlots n) [ScFlush; ScConsumeSlots 1] -> 1 <= n) /\
  (forall n, In (ScConsiderProduced n) [ScSlurp; ScConsiderProduced 2] -> 1 <= n) /\
  (Datatypes.S scrambler_capacity * 3 <=? 6147) = true /\ length [5; 6; 7] + 2 <= 5 <= 10.
Proof.
  split; [lia|]. split; [intros n [H|[H|[]]]; [discriminate|injection H as <-; lia]|].
  split; [intros n [H|[H|[]]]; [discriminate|injection H as <-; lia]|]. split; [vm_compute; reflexivity|cbn; lia].
Qed.

(** 2049 bytes: the scrambler takes 2048; then it passes them on, as many as the connection has room for; it panics when it has passed on all of them. *)
Definition ex_debug (dbg : bool) (capacity : nat) :=
  mk_joint (T := nat) (conn_new []) (compat_receive dbg 4098 5000 (repeat 7 2049) 3 [ScProduce]) (compat_send dbg 4098 5000 capacity (repeat 7 2049) 2 [ScConsume]).
Definition ex_buf_debug (dbg : bool) (capacity : nat) :=
  mk_joint (T := nat) (conn_new []) (compat_buf_receive dbg 4098 5000 16 (repeat 7 2049) [ScProduce]) (compat_send dbg 4098 5000 capacity (repeat 7 2049) 2 [ScConsume]).
Example C84_compat_debug_ex :
  see (exec receiver_holds sender_holds [Receive; Send; Send] (ex_debug true 3)) = Ret (false, [7; 7; 7], [7; 7; 7], false) /\
  see (exec receiver_holds sender_holds [Receive; Send] (ex_debug true 2048)) = Panic /\
  see (exec receiver_holds sender_holds [Receive; Send; Receive; Send; Receive] (ex_debug false 2048)) = Ret (true, repeat 7 2049, [], true) /\
  (length (repeat 7 2049) + 2 <=? 2051) = true /\ see (block_on_join receiver_holds sender_holds 2051 (ex_debug true 1000)) = Panic.
Proof. splits; vm_compute; reflexivity. Qed.
Example C84_compat_buf_read_debug_ex :
  see (exec buf_receiver_holds sender_holds [Receive; Send; Send] (ex_buf_debug true 3)) = Ret (false, [7; 7; 7], [7; 7; 7], false) /\
  see (exec buf_receiver_holds sender_holds [Receive; Send] (ex_buf_debug true 2048)) = Panic /\
  see (block_on_join buf_receiver_holds sender_holds 2051 (ex_buf_debug true 1000)) = Panic.
Proof. splits; vm_compute; reflexivity. Qed.

(** Without any room, both tasks wait for each other. *)
Theorem C84_room_needed : exists capacity, see (block_on_join receiver_holds sender_holds 5 (ex_start capacity)) = NoFuel /\
  see (exec receiver_holds sender_holds [Receive; Send; Receive; Send; Receive; Send] (ex_start capacity)) = Ret (false, [], [], false).
Proof. exists 0. split; vm_compute; reflexivity. Qed.
Print Assumptions C84_room_needed.

(** For example, the receiving end of a connection whose other end follows a script. *)
Example C84_buffered_reader_lawful_ex : forall wait,
  lawful_reader (T := nat) (blocking_reader (script_reader wait)) script_R /\ script_R (T := nat) (conn_new [], [mk_conn [1; 2] true [] [] false false false]) [1; 2] (Ok tt) /\
  (forall (s : conn nat * list (conn nat)) l buf s' r, script_R s [] l -> buf <> [] -> r_read (blocking_reader (script_reader wait)) buf s = Ret (s', r) -> script_R s' [] l).
Proof. intros wait. split; [apply script_reader_lawful|]. split; [split; reflexivity|]. apply script_reader_sticky. Qed.

(** Property C92: lists of items, and integers, travel from one task to another over a connection, through pipes, codecs and the adaptors for readers and writers. *)
From Coq Require Import Bool List Arith Lia ZArith.
From Coq.Init Require Import Byte.
From Verif Require Import Prelude QueueModel Traits Contracts BasicModel BasicProofs CodecModel CodecSpec EndianModel EndianSpec EndianProofs IoModel FuzzModel AsyncModel AsyncSpec AsyncProofs
  AsyncAdaptorModel AsyncIoModel AsyncSuspendProofs AsyncYieldProofs JoinModel JoinSpec JoinRunProofs LinkModel LinkSpec LinkProofs.
Import ListNotations.

(** *** C92. [P], in the state [s], is any producer that keeps the contract, never waits, and has the items [input] and then [()]. [capacity]: how many items the connection holds;
    [qs], [qr]: the capacities of the queues of the adaptors; [fuel], [wait]: fuel. The sender pipes [P] into the adaptor around the writer and unwraps; the receiver pipes the adaptor around
    the reader into a vector, unwraps, and asserts that it has got [input]. Both choose independently to pipe item by item or in bulk. *)
Theorem C92_reader :
  forall T (HT : eq_dec T) (x0 : T) L PE (P : a_bulk_producer L T unit PE) R D how_s how_r fuel wait capacity qs qr input s k,
  bulk_producer_pending (fun _ => False) P -> lawful_producer (blocking_bulk_producer P) R D -> R s input (Ok tt) k ->
  1 <= capacity -> 1 <= qs < fuel -> 1 <= qr -> length input < fuel ->
  delivers link_receiver_holds link_sender_holds capacity wait input
    (link_receive x0 fuel wait qr how_r input) (link_send x0 fuel wait capacity qs how_s P s).
Proof.
  intros T HT x0 L PE P R D how_s how_r fuel wait capacity qs qr input s k HP LP HR Hc Hqs Hqr Hf.
  apply (delivers_good x0) with (vr := link_recv_view T T) (vs := link_send_view T L) (vg := link_log_view T L); try reflexivity; try assumption.
  - intros sc s1 s2 (((_ & H) & _) & _). exact H.
  - intros sc s1. cbn. auto.
  - now apply link_receive_good.
  - eapply link_send_good; eauto.
Qed.
Print Assumptions C92_reader.

(** The same with a buffered reader with a buffer of [qr] slots. *)
Theorem C92_buf_reader :
  forall T (HT : eq_dec T) (x0 : T) L PE (P : a_bulk_producer L T unit PE) R D how_s how_r fuel wait capacity qs qr input s k,
  bulk_producer_pending (fun _ => False) P -> lawful_producer (blocking_bulk_producer P) R D -> R s input (Ok tt) k ->
  1 <= capacity -> 1 <= qs < fuel -> 1 <= qr -> length input < fuel ->
  delivers link_buf_receiver_holds link_sender_holds capacity wait input
    (link_buf_receive x0 fuel wait qr how_r input) (link_send x0 fuel wait capacity qs how_s P s).
Proof.
  intros T HT x0 L PE P R D how_s how_r fuel wait capacity qs qr input s k HP LP HR Hc Hqs Hqr Hf.
  apply (delivers_good x0) with (vr := link_buf_recv_view T T) (vs := link_send_view T L) (vg := link_log_view T L); try reflexivity; try assumption.
  - intros sc s1 s2 (((_ & H) & _) & _). exact H.
  - intros sc s1. cbn. auto.
  - now apply link_buf_receive_good.
  - eapply link_send_good; eauto.
Qed.
Print Assumptions C92_buf_reader.

(** Integers: the sender pipes into an encoder around the adaptor, the receiver pipes from a decoder. What travels are the bytes of the integers, for each of the wrappers of the
    endian codec. *)
Theorem C92_codec_reader :
  forall w L PE (P : a_bulk_producer L (num (wrapped w)) unit PE) R D fuel wait capacity qs qr vs bytes s k,
  bulk_producer_pending (fun _ => False) P -> lawful_producer (blocking_bulk_producer P) R D -> R s vs (Ok tt) k ->
  1 <= capacity -> 1 <= qs < fuel -> 1 <= qr -> length vs < fuel ->
  (exists pieces, bytes = concat pieces /\ Forall2 (encodes w) vs pieces) ->
  delivers link_receiver_holds link_sender_holds capacity wait bytes
    (link_receive_decoded w fuel wait qr vs) (link_send_encoded w fuel wait capacity qs P s).
Proof.
  intros w L PE P R D fuel wait capacity qs qr vs bytes s k HP LP HR Hc Hqs Hqr Hf (pieces & -> & HB).
  rewrite (encoded_pieces HB).
  apply (delivers_good x00) with (vr := link_recv_view byte (num (wrapped w))) (vs := link_send_view byte L) (vg := link_log_view byte L); try reflexivity; try assumption.
  - intros sc s1 s2 (((_ & H) & _) & _). exact H.
  - intros sc s1. cbn. auto.
  - now apply link_receive_decoded_good.
  - eapply link_send_encoded_good; eauto.
Qed.
Print Assumptions C92_codec_reader.

Theorem C92_codec_buf_reader :
  forall w L PE (P : a_bulk_producer L (num (wrapped w)) unit PE) R D fuel wait capacity qs qr vs bytes s k,
  bulk_producer_pending (fun _ => False) P -> lawful_producer (blocking_bulk_producer P) R D -> R s vs (Ok tt) k ->
  1 <= capacity -> 1 <= qs < fuel -> 1 <= qr -> length vs < fuel ->
  (exists pieces, bytes = concat pieces /\ Forall2 (encodes w) vs pieces) ->
  delivers link_buf_receiver_holds link_sender_holds capacity wait bytes
    (link_buf_receive_decoded w fuel wait qr vs) (link_send_encoded w fuel wait capacity qs P s).
Proof.
  intros w L PE P R D fuel wait capacity qs qr vs bytes s k HP LP HR Hc Hqs Hqr Hf (pieces & -> & HB).
  rewrite (encoded_pieces HB).
  apply (delivers_good x00) with (vr := link_buf_recv_view byte (num (wrapped w))) (vs := link_send_view byte L) (vg := link_log_view byte L); try reflexivity; try assumption.
  - intros sc s1 s2 (((_ & H) & _) & _). exact H.
  - intros sc s1. cbn. auto.
  - now apply link_buf_receive_decoded_good.
  - eapply link_send_encoded_good; eauto.
Qed.
Print Assumptions C92_codec_buf_reader.

(** What can be seen of the tasks. *)
Definition observe {T SR SS} (o : outcome (joint T SR SS)) : outcome (bool * list T * list T * bool) :=
  let* j := o in Ret (both_done j, cn_sent (j_conn j), cn_buf (j_conn j), cn_closed (j_conn j)).

(** A slice is such a producer. *)
Example C92_source_ex : forall T (l : list T),
  bulk_producer_pending (fun _ => False) (@a_from_slice T) /\ lawful_producer (blocking_bulk_producer (@a_from_slice T)) fs_rel fs_end /\ fs_rel (from_slice_new l) l (Ok tt) 0.
Proof.
  intros T l. split; [apply pending_from_slice|]. split; [|apply fs_rel_new]. eapply same_lawful_producer; [apply same_from_slice|apply from_slice_lawful].
Qed.

Definition ex_pipes (how_s how_r : way) (capacity : nat) (expected : list nat) :=
  mk_joint (T := nat) (conn_new [1; 2]) (link_receive 0 9 30 2 how_r expected) (link_send 0 9 30 capacity 2 how_s a_from_slice (from_slice_new [5; 6; 7; 8])).

Example C92_reader_ex :
  observe (block_on_join link_receiver_holds link_sender_holds 6 (ex_pipes ItemByItem InBulk 1 [5; 6; 7; 8])) = Ret (true, [5; 6; 7; 8], [], true) /\
  observe (exec link_receiver_holds link_sender_holds [Send; Send; Receive; Send] (ex_pipes InBulk ItemByItem 2 [5; 6; 7; 8])) = Ret (false, [5; 6; 7; 8], [7; 8], true).
Proof. split; vm_compute; reflexivity. Qed.

(** The receiver does look at what it gets. *)
Example C92_reader_asserts_ex :
  observe (block_on_join link_receiver_holds link_sender_holds 6 (ex_pipes ItemByItem InBulk 1 [5; 6; 7])) = Panic /\
  observe (block_on_join link_receiver_holds link_sender_holds 6 (ex_pipes InBulk ItemByItem 1 [5; 6; 7; 9])) = Panic.
Proof. split; vm_compute; reflexivity. Qed.

Example C92_buf_reader_ex :
  observe (let* (j, ready) := spawned link_buf_receiver_holds link_sender_holds (repeat Send 13) true true
    (mk_joint (conn_new [3; 1]) (link_buf_receive 0 9 30 3 InBulk [5; 6; 7; 8]) (link_send 0 9 30 2 2 InBulk a_from_slice (from_slice_new [5; 6; 7; 8]))) in Ret j) =
  Ret (true, [5; 6; 7; 8], [], true).
Proof. vm_compute. reflexivity. Qed.

(** Two numbers of sixteen bits, in big-endian order, over a connection that holds a single byte. *)
Definition ex_numbers : list (num u16) := [num_of u16 513; num_of u16 65280].
Example C92_codec_reader_ex :
  observe (block_on_join link_receiver_holds link_sender_holds 6
    (mk_joint (conn_new [1; 2]) (link_receive_decoded U16BE 9 30 3 ex_numbers) (link_send_encoded U16BE 9 30 1 2 a_from_slice (from_slice_new ex_numbers)))) =
  Ret (true, [x02; x01; xff; x00], [], true) /\
  exists pieces, [x02; x01; xff; x00] = concat pieces /\ Forall2 (encodes U16BE) ex_numbers pieces.
Proof. split; [vm_compute; reflexivity|]. exists [[x02; x01]; [xff; x00]]. split; [reflexivity|]. repeat constructor. Qed.
Example C92_codec_buf_reader_ex :
  observe (block_on_join link_buf_receiver_holds link_sender_holds 6
    (mk_joint (conn_new [1; 2]) (link_buf_receive_decoded U16LE 9 30 3 ex_numbers) (link_send_encoded U16LE 9 30 1 2 a_from_slice (from_slice_new ex_numbers)))) =
  Ret (true, [x01; x02; x00; xff], [], true).
Proof. vm_compute. reflexivity. Qed.

(** A receiver for numbers of another byte order notices, in this case. *)
Example C92_codec_asserts_ex :
  observe (block_on_join link_receiver_holds link_sender_holds 6
    (mk_joint (conn_new []) (link_receive_decoded U16LE 9 30 3 ex_numbers) (link_send_encoded U16BE 9 30 1 2 a_from_slice (from_slice_new ex_numbers)))) = Panic.
Proof. vm_compute. reflexivity. Qed.

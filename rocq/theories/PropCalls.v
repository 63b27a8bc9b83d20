(** Property C90: exactly which calls are made, whatever the producers and consumers do. *)
From Coq Require Import Bool List Arith ZArith Lia.
From Coq.Init Require Import Byte.
From Verif Require Import Prelude ListFacts Traits QueueModel QueueSpec QueueProofs BasicModel AdaptorModel ScramblerModel TowerModel IoModel Contracts AdaptorSpec CodecModel EndianModel EndianSpec EndianProofs CallsSpec CallsProofs CallsWriterProofs.
Import ListNotations.

(** *** C90: pipes. They end as said exactly if the producer and the consumer have seen these calls and answered this way. *)
Theorem C90_pipe : forall SP SC T F PE CE (P : bulk_producer SP T F PE) (C : bulk_consumer SC T F CE) sp sc sp' sc' r,
  (exists fuel, pipe fuel P C sp sc = Ret (sp', sc', r)) <->
  (exists lp lc, p_trace P sp lp sp' /\ c_trace C sc lc sc' /\ pipe_calls r lp lc).
Proof.
  intros SP SC T F PE CE P C sp sc sp' sc' r. split.
  - intros (fuel & H). exact (pipe_makes _ _ _ _ _ H).
  - intros (lp & lc & H1 & H2 & xs & H). eapply pipe_made; eassumption.
Qed.
Print Assumptions C90_pipe.

Theorem C90_pipe_at_most : forall SP SC T F PE CE (P : bulk_producer SP T F PE) (C : bulk_consumer SC T F CE) count sp sc sp' sc' r,
  pipe_at_most P C count sp sc = Ret (sp', sc', r) <->
  (exists lp lc, p_trace P sp lp sp' /\ c_trace C sc lc sc' /\ pipe_at_most_calls count r lp lc).
Proof.
  intros SP SC T F PE CE P C count sp sc sp' sc' r. split.
  - intros H. destruct (pipe_at_most_makes _ _ _ _ _ _ H) as (lp & lc & H1 & H2 & r0 & -> & H3). exists lp, lc. split; [exact H1|]. split; [exact H2|]. destruct r0; exact H3.
  - intros (lp & lc & H1 & H2 & H). eapply pipe_at_most_made; eassumption.
Qed.
Print Assumptions C90_pipe_at_most.

Theorem C90_bulk_pipe : forall SP SC T F PE CE (P : bulk_producer SP T F PE) (C : bulk_consumer SC T F CE) sp sc sp' sc' r,
  (exists fuel, bulk_pipe fuel P C sp sc = Ret (sp', sc', r)) <->
  (exists lp lc, p_trace P sp lp sp' /\ c_trace C sc lc sc' /\ exists rs, bulk_pipe_calls None rs r lp lc).
Proof.
  intros SP SC T F PE CE P C sp sc sp' sc' r. split.
  - intros (fuel & H). destruct (bulk_pipe_makes _ _ _ _ _ H) as (rs & lp & lc & H1 & H2 & H3). exists lp, lc. split; [exact H1|]. split; [exact H2|]. exists rs. exact H3.
  - intros (lp & lc & H1 & H2 & rs & H). eapply bulk_pipe_made; eassumption.
Qed.
Print Assumptions C90_bulk_pipe.

(** The number in the result is the number of items that the consumer says it has consumed. *)
Theorem C90_bulk_pipe_at_most : forall SP SC T F PE CE (P : bulk_producer SP T F PE) (C : bulk_consumer SC T F CE) count sp sc sp' sc' r,
  (exists fuel, bulk_pipe_at_most fuel P C count sp sc = Ret (sp', sc', r)) <->
  (exists lp lc, p_trace P sp lp sp' /\ c_trace C sc lc sc' /\ exists rs r0, bulk_pipe_calls (Some count) rs r0 lp lc /\ r = map_ok (fun _ => moved rs) r0).
Proof.
  intros SP SC T F PE CE P C count sp sc sp' sc' r. split.
  - intros (fuel & H). destruct (bulk_pipe_at_most_makes _ _ _ _ _ _ _ H) as (rs & lp & lc & r0 & H1 & H2 & H3 & ->). rewrite Nat.sub_0_r in H3.
    exists lp, lc. split; [exact H1|]. split; [exact H2|]. exists rs, r0. split; [exact H3|reflexivity].
  - intros (lp & lc & H1 & H2 & rs & r0 & H & ->). rewrite <- (Nat.sub_0_r count) in H. exact (@bulk_pipe_at_most_made _ _ _ _ _ _ P C rs count 0 _ _ _ _ _ _ _ H1 H2 H).
Qed.
Print Assumptions C90_bulk_pipe_at_most.

(** *** C90: slices *)
Theorem C90_consume_full_slice : forall S T F E (C : bulk_consumer S T F E) buf s s' r,
  consume_full_slice C buf s = Ret (s', r) <-> exists l, c_trace C s l s' /\ consume_slice_calls buf r l.
Proof.
  intros S T F E C buf s s' r. unfold consume_full_slice. rewrite consume_slice_iff. split.
  - intros (l & H1 & r0 & H & ->). exists l. split; [exact H1|]. destruct r0 as [[]|[j e]]; exact H.
  - intros (l & H1 & H). exists l. split; [exact H1|]. exists r. split; [exact H|]. destruct r as [[]|[j e]]; reflexivity.
Qed.
Print Assumptions C90_consume_full_slice.

Theorem C90_bulk_consume_full_slice : forall S T F E (C : bulk_consumer S T F E) buf s s' r,
  (exists fuel, bulk_consume_full_slice fuel C buf s = Ret (s', r)) <-> exists l, c_trace C s l s' /\ bulk_consume_slice_calls buf r l.
Proof.
  intros S T F E C buf s s' r. split.
  - intros (fuel & H). destruct (bulk_consume_slice_makes _ _ _ _ _ H) as (l & H1 & r0 & H2 & ->). exists l. split; [exact H1|]. destruct r0 as [[]|[j e]]; exact H2.
  - intros (l & H1 & ns & H2 & H3). destruct (@bulk_consume_slice_made _ _ _ _ C ns 0 buf _ _ r _ H1 H2 H3) as (fuel & H). exists fuel. etransitivity; [exact H|]. destruct r as [[]|[j e]]; reflexivity.
Qed.
Print Assumptions C90_bulk_consume_full_slice.

Theorem C90_overwrite_full_slice : forall S T F E (P : bulk_producer S T F E) buf s s' buf' r,
  overwrite_full_slice P buf s = Ret (s', (buf', r)) <-> exists l, p_trace P s l s' /\ overwrite_slice_calls buf buf' r l.
Proof.
  intros S T F E P buf s s' buf' r. split.
  - intros H. destruct (@overwrite_slice_makes _ _ _ _ P _ [] buf _ _ _ _ eq_refl H) as (l & H1 & r0 & rest & H2 & -> & ->). exists l. split; [exact H1|]. destruct r0 as [[]|[j e]]; exact H2.
  - intros (l & H1 & xs & -> & H). etransitivity; [exact (@overwrite_slice_made _ _ _ _ P xs [] buf _ _ _ r H1 H)|]. destruct r as [[]|[j e]]; reflexivity.
Qed.
Print Assumptions C90_overwrite_full_slice.

Theorem C90_bulk_overwrite_full_slice : forall S T F E (P : bulk_producer S T F E) buf s s' buf' r,
  (exists fuel, bulk_overwrite_full_slice fuel P buf s = Ret (s', (buf', r))) <-> exists l, p_trace P s l s' /\ bulk_overwrite_slice_calls buf buf' r l.
Proof.
  intros S T F E P buf s s' buf' r. split.
  - intros (fuel & H). exact (bulk_overwrite_slice_makes _ _ _ _ _ H).
  - intros (l & H1 & rs & H2 & H3). exact (@bulk_overwrite_slice_made _ _ _ _ P rs 0 buf _ _ _ _ _ H1 H2 H3).
Qed.
Print Assumptions C90_bulk_overwrite_full_slice.

(** *** C90: composed adaptors. One call from outside is exactly this in the middle, whatever happened before. *)
Theorem C90_consumer_towers : forall S T F E G B (C : bulk_consumer S T F E) (t : ctower F E G B) o s s' a,
  (forall buf, o = CBulkConsume buf -> ~ bare_consumer t) -> c_do (ct_consumer C t) o s = Ret (s', a) ->
  exists l, c_trace C (ct_base t s) l (ct_base t s') /\ ct_call t s o l a.
Proof. intros S T F E G B C t o s s' a HB H. now apply ct_calls. Qed.
Print Assumptions C90_consumer_towers.

Theorem C90_producer_towers : forall S T F E G (P : bulk_producer S T F E) (t : ptower T F E G) o s s' a,
  unscrambled t -> (forall buf, o = PBulkProduce buf -> ~ bare_producer t) -> p_do (pt_producer P t) o s = Ret (s', a) ->
  exists l, p_trace P (pt_base t s) l (pt_base t s') /\ pt_call t s o l a.
Proof. intros S T F E G P t o s s' a HU HB H. now apply pt_calls. Qed.
Print Assumptions C90_producer_towers.

(** *** C90: the queues of the adaptors for readers and writers. Without [expose_items] and [expose_slots] they are not used. *)
Theorem C90_queues : (forall T, empty_unchanged (fixed_queue T)) /\ (forall T N, empty_unchanged (@static_queue T N)).
Proof. split; [exact fixed_empty_unchanged|exact static_empty_unchanged]. Qed.
Print Assumptions C90_queues.

Theorem C90_reader_sidesteps : forall S Q T (Rd : reader S T) (I : queue Q T) x0, empty_unchanged I ->
  forall h st st', q_len I (rs_queue st) = 0 -> p_trace (reader_producer Rd I x0) st h st' -> Forall (fun or => p_direct (fst or)) h ->
  rs_queue st' = rs_queue st /\
  (forall buf r, h = [(PBulkProduce buf, r)] -> exists buf' r0, r = PABuf buf' r0 /\ one_read Rd st st' buf buf' r0).
Proof.
  intros S Q T Rd I x0 HI h st st' HE HT HF. split; [exact (@reader_sidesteps _ _ _ Rd I x0 HI h _ _ HE HT HF)|]. intros buf r ->. parts.
  refine (proj2 (@reader_direct _ _ _ Rd I x0 HI (PBulkProduce buf) st _ _ HE Logic.I _) buf eq_refl).
  cbn [p_do]. match goal with H : p_bulk_produce _ _ _ = _ |- _ => rewrite H end. reflexivity.
Qed.
Print Assumptions C90_reader_sidesteps.

Theorem C90_writer_sidesteps : forall S Q T (W : writer S T) (I : queue Q T) fuel, empty_unchanged I ->
  forall h st st', q_len I (ws_queue st) = 0 -> c_trace (writer_consumer W I fuel) st h st' -> Forall (fun or => c_direct (fst or)) h ->
  ws_queue st' = ws_queue st /\
  (forall buf r, h = [(CBulkConsume buf, r)] -> exists r0, r = CANat r0 /\ one_write W st st' buf r0).
Proof.
  intros S Q T W I fuel HI h st st' HE HT HF. split; [exact (@writer_sidesteps _ _ _ W I HI fuel h _ _ HE HT HF)|]. intros buf r ->. parts.
  refine (proj2 (@writer_direct _ _ _ W I HI fuel (CBulkConsume buf) st _ _ HE Logic.I _) buf eq_refl).
  cbn [c_do]. match goal with H : c_bulk_consume _ _ _ = _ |- _ => rewrite H end. reflexivity.
Qed.
Print Assumptions C90_writer_sidesteps.

(** *** C90: readers. Which calls of the reader the adaptors make, and what they make of the answers. *)
Theorem C90_buf_reader : forall S T (Rd : buf_reader S T) x0 o s s' a, reads_in_place Rd ->
  p_do (buf_reader_producer Rd x0) o s = Ret (s', a) -> exists l, br_makes Rd s l s' /\ br_call x0 o l a.
Proof. intros S T Rd x0 o s s' a HP H. exact (@br_calls _ _ Rd x0 HP o s s' a H). Qed.
Print Assumptions C90_buf_reader.

Theorem C90_queued_reader : forall S Q T (Rd : reader S T) (I : queue Q T) x0 c RQ o st items k w st' a,
  reads_in_place Rd -> lawful_queue I c RQ -> 1 <= c -> RQ (rs_queue st) items k w -> (forall n, o = PConsider n -> n <= length items) ->
  p_do (reader_producer Rd I x0) o st = Ret (st', a) ->
  exists l items' k' w', r_makes Rd (rs_reader st) l (rs_reader st') /\ rd_call x0 c items o l a items' /\ RQ (rs_queue st') items' k' w'.
Proof. intros S Q T Rd I x0 c RQ o st items k w st' a HP LQ Hc HQ HO H. exact (@rd_calls _ _ _ Rd I x0 c RQ HP LQ Hc o st items k w st' a HQ HO H). Qed.
Print Assumptions C90_queued_reader.

(** *** C90: writers. Which calls of the writer the adaptor makes, and what it makes of the answers. *)
Theorem C90_queued_writer : forall S Q T (W : writer S T) (I : queue Q T) c RQ fuel o st items k w st' a,
  lawful_queue I c RQ -> 1 <= c -> RQ (ws_queue st) items k w ->
  match o with CWrite ys => length ys <= k | CConsumeSlots n => n <= length w | _ => True end ->
  c_do (writer_consumer W I fuel) o st = Ret (st', a) ->
  exists l items' k' w', w_makes W (ws_writer st) l (ws_writer st') /\ wr_call c items w o l a items' w' /\ RQ (ws_queue st') items' k' w'.
Proof. intros S Q T W I c RQ fuel o st items k w st' a LQ Hc HQ HO H. exact (@wr_calls _ _ _ W I c RQ LQ Hc fuel o st items k w st' a HQ HO H). Qed.
Print Assumptions C90_queued_writer.

(** *** C90: encoders and decoders for numbers *)
Theorem C90_encoder : forall S F E (C : bulk_consumer S byte F E) (n : wrapper) s s',
  (forall v r, c_consume (encoder (endian_encode n) C) v s = Ret (s', r) -> exists l, c_trace C s l s' /\ encoder_call n v l r) /\
  (forall f r, c_close (encoder (endian_encode n) C) f s = Ret (s', r) <-> c_trace C s [(CClose f, CAUnit r)] s') /\
  (forall r, c_flush (encoder (endian_encode n) C) s = Ret (s', r) <-> c_trace C s [(CFlush, CAUnit r)] s').
Proof.
  intros S F E C n s s'. split; [intros v r H; exact (@encoder_calls _ _ _ C n v s s' r H)|].
  split; intros; cbn; (split; [intros H; eapply c_trace_step; [cbn [c_do]; rewrite H; reflexivity|constructor]|]); intros H; parts; reflexivity || assumption.
Qed.
Print Assumptions C90_encoder.

Theorem C90_decoder : forall S F E (P : bulk_producer S byte F E) (n : wrapper) s s',
  (forall r, p_produce (decoder (endian_decode n) P) s = Ret (s', r) -> exists l, p_trace P s l s' /\ decoder_call n l r) /\
  (forall r, p_slurp (decoder (O := infallible) (endian_decode n) P) s = Ret (s', r) -> exists r0, p_trace P s [(PSlurp, PAUnit r0)] s' /\ r = map_err Producer r0).
Proof.
  intros S F E P n s s'. split; [intros r H; exact (@decoder_calls _ _ _ P n s s' r H)|].
  intros r H. cbn in H. unfold decoder_slurp in H. destruct (p_slurp P s) as [[s1 r0]| |] eqn:E1; cbn in H; try discriminate. injection H as <- <-.
  exists r0. split; [eapply p_trace_step; [cbn [p_do]; rewrite E1; reflexivity|constructor]|]. reflexivity.
Qed.
Print Assumptions C90_decoder.

(** ** Examples *)

(** A producer of the numbers in its state, two at a time, and a consumer that takes up to two at a time and fails at the item 9. *)
Definition C90_src : bulk_producer (list nat) nat bool nat :=
  let produce l := match l with [] => Ret ([], Ok (inr true)) | x :: l => Ret (l, Ok (inl x)) end in
  bulk_producer_of produce (fun l => Ret (l, Ok tt)) (fun l => match l with [] => Ret ([], Ok (inr true)) | _ => Ret (l, Ok (inl (firstn 2 l))) end)
    (fun n l => Ret (skipn n l, Ok tt)).
Definition C90_dst : bulk_consumer (list nat * list nat) nat bool nat :=
  bulk_consumer_of (fun x s => if x =? 9 then Ret (s, Err 7) else Ret ((fst s ++ [x], snd s), Ok tt)) (fun _ s => Ret (s, Ok tt)) (fun s => Ret (s, Ok tt))
    (fun s => Ret (s, Ok 2)) (fun ys s => (fst s, ys)) (fun n s => Ret ((fst s ++ firstn n (snd s), []), Ok tt)).

Example C90_pipe_example :
  (exists sp' sc', pipe 9 C90_src C90_dst [4; 5; 9; 6] ([], []) = Ret (sp', sc', Err (PipeConsumer 7)) /\ sp' = [6] /\ fst sc' = [4; 5]) /\
  (exists sp' sc', pipe_at_most C90_src C90_dst 3 [4; 5] ([], []) = Ret (sp', sc', Ok 2) /\ sp' = [] /\ fst sc' = [4; 5]) /\
  (exists sp' sc', pipe_at_most C90_src C90_dst 2 [4; 5] ([], []) = Ret (sp', sc', Ok 2) /\ sp' = [] /\ fst sc' = [4; 5]) /\
  pipe_at_most_calls (CE := nat) (PE := nat) 2 (Ok 2) (@p_items nat bool nat [4; 5]) (c_items [4; 5]) /\
  ~ pipe_at_most_calls (CE := nat) (PE := nat) 3 (Ok 2) (@p_items nat bool nat [4; 5]) (c_items [4; 5]).
Proof.
  split; [do 2 eexists; split; [reflexivity|split; reflexivity]|]. split; [do 2 eexists; split; [reflexivity|split; reflexivity]|].
  split; [do 2 eexists; split; [reflexivity|split; reflexivity]|]. split; [exists [4; 5]; split; [reflexivity|]; left; repeat split|].
  intros (xs & HL & [(HF & _)|(_ & f & HF & _)]); [discriminate HF|]. destruct xs as [|x [|y [|z xs]]]; cbn in HF, HL; discriminate.
Qed.

(** A bulk pipe with room for three items: rounds of two and one, then nothing more. *)
Example C90_bulk_pipe_at_most_example :
  bulk_pipe_at_most 9 C90_src C90_dst 3 [4; 5; 9; 6] ([], []) = Ret ([6], ([4; 5; 9], []), Ok 3) /\
  bulk_pipe_calls (CE := nat) (PE := nat) (F := bool) (Some 3) [([4; 5], 2); ([9; 6], 1)] (Ok tt)
    [(PExpose, PASlice (Ok (inl [4; 5]))); (PConsider 2, PAUnit (Ok tt)); (PExpose, PASlice (Ok (inl [9; 6]))); (PConsider 1, PAUnit (Ok tt))]
    [(CBulkConsume [4; 5], CANat (Ok 2)); (CBulkConsume [9], CANat (Ok 1))] /\
  moved [([4; 5], 2); ([9; 6], 1)] = 3.
Proof.
  split; [reflexivity|]. split; [|reflexivity]. split; [cbn; repeat split; discriminate|]. exists [], []. split; [apply last_full|split; reflexivity].
Qed.
Example C90_bulk_pipe_example :
  bulk_pipe 9 C90_src C90_dst [4; 5; 6] ([], []) = Ret ([], ([4; 5; 6], []), Ok tt) /\
  bulk_pipe_calls (CE := nat) (PE := nat) None [([4; 5], 2); ([6], 1)] (Ok tt)
    [(PExpose, PASlice (Ok (inl [4; 5]))); (PConsider 2, PAUnit (Ok tt)); (PExpose, PASlice (Ok (inl [6]))); (PConsider 1, PAUnit (Ok tt));
     (PExpose, PASlice (Ok (inr true)))]
    [(CBulkConsume [4; 5], CANat (Ok 2)); (CBulkConsume [6], CANat (Ok 1)); (CClose true, CAUnit (Ok tt))].
Proof.
  split; [reflexivity|]. split; [cbn; repeat split; discriminate|]. do 2 eexists.
  split; [apply (@last_final nat bool nat nat None true (Ok tt)); discriminate|split; reflexivity].
Qed.

Example C90_slices_example :
  consume_full_slice C90_dst [4; 9; 5] ([], []) = Ret (([4], []), Err (mk_cale 1 7)) /\
  consume_slice_calls (F := bool) [4; 9; 5] (Err (mk_cale 1 7)) [(CConsume 4, CAUnit (Ok tt)); (CConsume 9, CAUnit (Err 7))] /\
  bulk_consume_full_slice 9 C90_dst [4; 5; 6] ([], []) = Ret (([4; 5; 6], []), Ok tt) /\
  bulk_consume_slice_calls (F := bool) (E := nat) [4; 5; 6] (Ok tt) [(CBulkConsume [4; 5; 6], CANat (Ok 2)); (CBulkConsume [6], CANat (Ok 1))] /\
  overwrite_full_slice C90_src [0; 0; 0] [4; 5] = Ret ([], ([4; 5; 0], Err (mk_pale 2 (inl true)))) /\
  overwrite_slice_calls (E := nat) [0; 0; 0] [4; 5; 0] (Err (mk_pale 2 (inl true)))
    [(PProduce, PAItem (Ok (inl 4))); (PProduce, PAItem (Ok (inl 5))); (PProduce, PAItem (Ok (inr true)))] /\
  bulk_overwrite_full_slice 9 C90_src [0; 0; 0] [4; 5; 6; 7] = Ret ([7], ([4; 5; 6], Ok tt)) /\
  bulk_overwrite_slice_calls (E := nat) (F := bool) [0; 0; 0] [4; 5; 6] (Ok tt)
    [(PBulkProduce [0; 0; 0], PABuf [4; 5; 0] (Ok (inl 2))); (PBulkProduce [0], PABuf [6] (Ok (inl 1)))].
Proof.
  split; [reflexivity|]. split; [exists 9, [5]; split; reflexivity|]. split; [reflexivity|].
  split; [exists [2; 1]; split; [cbn; lia|]; split; [cbn; lia|reflexivity]|]. split; [reflexivity|].
  split; [exists [4; 5]; split; [reflexivity|]; split; [reflexivity|]; split; [cbn; lia|reflexivity]|]. split; [reflexivity|].
  exists [([4; 5; 0], 2); ([6], 1)]. split; [cbn; lia|]. split; [cbn; lia|]. split; reflexivity.
Qed.

(** A tower of two limits: what is offered in the middle is bounded by the smaller one, and once it is used up nothing is asked in the middle. *)
Definition C90_tower : ctower bool nat nat (option (option nat)) := CTLimit 3 (CTMapFinal (fun n => n =? 0) (CTLimit 1 CTBase)).
Example C90_tower_example :
  let C := ct_consumer C90_dst C90_tower in let s := ct_new ([], []) C90_tower in
  exists s' s'', c_do C (@CBulkConsume nat nat [4; 5]) s = Ret (s', CANat (Ok 1)) /\
  ct_call (T := nat) C90_tower s (CBulkConsume [4; 5]) [(CExpose, CASlots (Ok 2)); (CWrite [4], CANone); (CConsumeSlots 1, CAUnit (Ok tt))] (CANat (Ok 1)) /\
  ct_base C90_tower s' = ([4], []) /\
  c_do C (CConsume 5) s' = Ret (s'', CAUnit (Err (Some None))) /\ ct_call (T := nat) C90_tower s' (CConsume 5) [] (CAUnit (Err (Some None))) /\
  ct_call (T := nat) C90_tower s' (CClose 0) [(CClose true, CAUnit (Err 3))] (CAUnit (Err (Some (Some 3)))).
Proof.
  do 2 eexists. split; [reflexivity|]. split; [right; exists 2, (Ok tt); split; reflexivity|]. split; [reflexivity|]. split; [reflexivity|].
  split; [split; reflexivity|]. exists true, (Err 3). repeat split.
Qed.

Definition C90_ptower : ptower nat bool nat nat := PTMapFinal (fun o : option bool => match o with None => 0 | Some b => if b then 1 else 2 end) (PTLimit 3 (PTInvariant PTBase)).
Example C90_ptower_example :
  let P := pt_producer C90_src C90_ptower in let s := pt_new [4; 5; 6; 7] C90_ptower in
  exists s' s'' s3, p_do P (PBulkProduce [0; 0; 0; 0]) s = Ret (s', PABuf [4; 5; 0; 0] (Ok (inl 2))) /\
  pt_call C90_ptower s (PBulkProduce [0; 0; 0; 0]) [(PExpose, PASlice (Ok (inl [4; 5]))); (PConsider 2, PAUnit (Ok tt))] (PABuf [4; 5; 0; 0] (Ok (inl 2))) /\
  p_do P (PBulkProduce [0; 0]) s' = Ret (s'', PABuf [6; 0] (Ok (inl 1))) /\
  p_do P PProduce s'' = Ret (s3, PAItem (Ok (inr 0))) /\ pt_base C90_ptower s3 = [7] /\
  pt_call C90_ptower s'' PProduce [] (PAItem (Ok (inr 0))).
Proof.
  do 3 eexists. split; [reflexivity|]. split; [right; right; exists [4; 5], (Ok tt); split; reflexivity|]. split; [reflexivity|]. split; [reflexivity|].
  split; [reflexivity|]. split; [reflexivity|]. eexists. split; reflexivity.
Qed.

(** A reader of the numbers in its state, two at a time. *)
Definition C90_reader : reader (list nat) nat :=
  mk_reader (fun buf l => let n := Nat.min 2 (Nat.min (length buf) (length l)) in Ret (skipn n l, (firstn n l ++ skipn n buf, Ok n))).
Definition C90_writer : writer (list nat) nat :=
  mk_writer (fun buf l => let n := Nat.min 2 (length buf) in Ret (l ++ firstn n buf, Ok n)) (fun l => Ret (l, Ok tt)) (fun l => Ret (l, Ok tt)).
Example C90_io_example :
  let P := reader_producer C90_reader (fixed_queue nat) 0 in let C := writer_consumer C90_writer (fixed_queue nat) 5 in
  (exists st', p_trace P (mk_reader_state [4; 5; 6] (fixed_new 0 3))
     [(PBulkProduce [0; 0; 0], PABuf [4; 5; 0] (Ok (inl 2))); (PProduce, PAItem (Ok (inl 6))); (PBulkProduce [0], PABuf [0] (Ok (inr tt)))] st') /\
  (exists st', c_trace C (mk_writer_state [] (fixed_new 0 3)) [(CBulkConsume [4; 5; 6], CANat (Ok 2)); (CConsume 6, CAUnit (Ok tt)); (CFlush, CAUnit (Ok tt))] st') /\
  (exists st', p_trace P (mk_reader_state [4; 5; 6] (fixed_new 0 3)) [(PExpose, PASlice (Ok (inl [4; 5])))] st' /\ rs_queue st' <> fixed_new 0 3).
Proof.
  split; [eexists; repeat (eapply p_trace_step; [reflexivity|]); constructor|]. split; [eexists; repeat (eapply c_trace_step; [reflexivity|]); constructor|].
  eexists. split; [eapply p_trace_step; [reflexivity|]; constructor|]. discriminate.
Qed.

(** With the same reader: an empty queue is filled with one [read]; with items in the queue nothing is read. *)
Definition C90_fill2 : buf_reader (list nat) nat := mk_buf_reader C90_reader (fun s => Ret (s, Ok (firstn 2 s))) (fun n s => Ret (skipn n s)).
Example C90_reader_in_place : reads_in_place C90_reader /\ reads_in_place C90_fill2.
Proof.
  assert (H : reads_in_place C90_reader); [|split; exact H]. intros buf s s' b r H. unfold C90_reader in H. cbv [r_read] in H. cbv zeta in H.
  set (n := Nat.min 2 (Nat.min (length buf) (length s))) in H. assert (Hn : n <= length buf /\ n <= length s) by (unfold n; lia). clearbody n. injection H as <- <- <-.
  rewrite app_length, firstn_length, skipn_length. split; [lia|]. intros m HN. injection HN as <-. lia.
Qed.
Example C90_queued_reader_example :
  let P := reader_producer C90_reader (fixed_queue nat) 0 in
  exists q1 q2, p_do P PExpose (mk_reader_state [4; 5; 6] (fixed_new 0 3)) = Ret (mk_reader_state [6] q1, PASlice (Ok (inl [4; 5]))) /\
  rd_call 0 3 [] PExpose [([0; 0; 0], [4; 5; 0], Ok 2)] (PASlice (Ok (inl [4; 5]))) [4; 5] /\
  p_do P (PBulkProduce [7]) (mk_reader_state [6] q1) = Ret (mk_reader_state [6] q2, PABuf [4] (Ok (inl 1))) /\
  rd_call 0 3 [4; 5] (PBulkProduce [7]) [] (PABuf [4] (Ok (inl 1))) [5].
Proof.
  do 2 eexists. split; [vm_compute; reflexivity|]. split.
  { exists 3, [4; 5; 0], (Ok 2). split; [lia|]. split; [reflexivity|]. split; [reflexivity|]. exists [4; 5], []. repeat split. discriminate. }
  split; [vm_compute; reflexivity|]. split; [reflexivity|]. exists 1. cbn. repeat split; try lia; discriminate.
Qed.
Example C90_buf_reader_example :
  p_do (buf_reader_producer C90_fill2 0) PExpose [4; 5; 6] = Ret ([4; 5; 6], PASlice (Ok (inl [4; 5]))) /\
  br_call 0 PExpose [RcFill (Ok [4; 5]); RcFill (Ok [4; 5])] (PASlice (Ok (inl [4; 5]))) /\
  p_do (buf_reader_producer C90_fill2 0) PProduce [4; 5; 6] = Ret ([5; 6], PAItem (Ok (inl 4))) /\
  br_call 0 PProduce [RcRead [0] [4] (Ok 1)] (PAItem (Ok (inl 4))).
Proof.
  split; [reflexivity|]. split; [right; right; exists 4, [5], (Ok [4; 5]); split; reflexivity|]. split; [reflexivity|].
  exists [4], (Ok 1). split; [reflexivity|]. exists 4. split; reflexivity.
Qed.

(** With the writer above: the two items in the queue are written first. A writer that fails leaves them in the queue. *)
Definition C90_broken_writer : writer (list nat) nat :=
  mk_writer (fun buf l => match buf with
                          | x :: _ :: _ => Ret (l ++ [x], Ok 1)
                          | _ => Ret (l, Err (mk_io_error (OtherKind 3) 7))
                          end) (fun l => Ret (l, Ok tt)) (fun l => Ret (l, Ok tt)).
Example C90_queued_writer_example :
  let e := mk_io_error (OtherKind 3) 7 in
  exists q2, q_bulk_enqueue (fixed_queue nat) [4; 5] (fixed_new 0 3) = Ret (q2, 2) /\
  (exists st', c_do (writer_consumer C90_writer (fixed_queue nat) 5) (CConsume 6) (mk_writer_state [] q2) = Ret (st', CAUnit (Ok tt)) /\ ws_writer st' = [4; 5; 6]) /\
  wr_call 3 [4; 5] [] (CConsume 6) [WcWrite [4; 5] (Ok 2); WcWrite [6] (Ok 1)] (CAUnit (Ok tt)) [] [] /\
  (exists st', c_do (writer_consumer C90_broken_writer (fixed_queue nat) 5) (CConsume 6) (mk_writer_state [] q2) = Ret (st', CAUnit (Err e)) /\ ws_writer st' = [4] /\ ws_queue st' = q2) /\
  wr_call 3 [4; 5] [] (CConsume 6) [WcWrite [4; 5] (Ok 1); WcWrite [5] (Err e)] (CAUnit (Err e)) [4; 5] [].
Proof.
  eexists. split; [vm_compute; reflexivity|]. split; [eexists; split; vm_compute; reflexivity|]. split.
  { exists [WcWrite [4; 5] (Ok 2)], (Ok tt). split.
    - apply (@wc_drain_piece _ [4; 5] [] [WcWrite [4; 5] (Ok 2)] []); [discriminate| |constructor]. apply wc_all_some; [cbn; lia|constructor].
    - exists [WcWrite [6] (Ok 1)]. split; [reflexivity|]. exists (Ok tt). split; [|reflexivity]. apply wc_all_some; [cbn; lia|constructor]. }
  split; [eexists; split; [|split]; vm_compute; reflexivity|].
  exists [WcWrite [4; 5] (Ok 1); WcWrite [5] (Err (mk_io_error (OtherKind 3) 7))], (Err (mk_io_error (OtherKind 3) 7)). split; [|split; reflexivity].
  apply (@wc_drain_err _ [4; 5] []); [discriminate|]. apply wc_all_some; [cbn; lia|]. apply wc_all_err. discriminate.
Qed.

(** A producer of two bytes per call: two calls are made for a number of four bytes. *)
Definition C90_bytes : bulk_producer (list byte) byte bool nat :=
  mk_bulk_producer (mk_buffered_producer (mk_producer (fun s => match s with [] => Ret ([], Ok (inr true)) | x :: s => Ret (s, Ok (inl x)) end)) (fun s => Ret (s, Ok tt)))
    (fun s => match s with [] => Ret ([], Ok (inr true)) | _ => Ret (s, Ok (inl (firstn 2 s))) end) (fun n s => Ret (skipn n s, Ok tt))
    (fun buf s => match s with [] => Ret ([], (buf, Ok (inr true))) | _ => let n := Nat.min 2 (Nat.min (length buf) (length s)) in Ret (skipn n s, (firstn n s ++ skipn n buf, Ok (inl n))) end).
Definition C90_sink : bulk_consumer (list byte) byte bool nat :=
  mk_bulk_consumer (mk_buffered_consumer (mk_consumer (fun x s => Ret (s ++ [x], Ok tt)) (fun _ s => Ret (s, Ok tt))) (fun s => Ret (s, Ok tt)))
    (fun s => Ret (s, Ok 0)) (fun _ s => s) (fun _ s => Ret (s, Ok tt)) (fun buf s => Ret (s ++ firstn 3 buf, Ok (Nat.min 3 (length buf)))).
Example C90_codec_example :
  p_produce (decoder (endian_decode U32BE) C90_bytes) [x00; x01; x00; x02; x07] = Ret ([x07], Ok (inl (num_of u32 65538))) /\
  decoder_call (F := bool) (E := nat) (O := infallible) U32BE
    [(PExpose, PASlice (Ok (inl [x00; x01]))); (PBulkProduce [x00; x00; x00; x00], PABuf [x00; x01; x00; x00] (Ok (inl 2))); (PBulkProduce [x00; x00], PABuf [x00; x02] (Ok (inl 2)))]
    (Ok (inl (num_of u32 65538))) /\
  p_produce (decoder (endian_decode U32BE) C90_bytes) [x00; x01] = Ret ([], Err (UnexpectedEndOfInput true)) /\
  c_consume (encoder (endian_encode U32BE) C90_sink) (num_of u32 65538) [] = Ret ([x00; x01; x00; x02], Ok tt) /\
  encoder_call (F := bool) (E := nat) U32BE (num_of u32 65538)
    [(CBulkConsume [x00; x01; x00; x02], CANat (Ok 3)); (CBulkConsume [x02], CANat (Ok 1))] (Ok tt).
Proof.
  split; [vm_compute; reflexivity|]. split.
  { right. right. exists [x00; x01]. eexists. exists [x00; x01; x00; x02], (Ok tt). split; [reflexivity|]. split.
    - exists [([x00; x01; x00; x00], 2); ([x00; x02], 2)]. cbn. repeat split; lia.
    - exists (num_of u32 65538). split; [reflexivity|]. intros _. reflexivity. }
  split; [vm_compute; reflexivity|]. split; [vm_compute; reflexivity|].
  exists [x00; x01; x00; x02], (Ok tt). split; [reflexivity|]. split; [|reflexivity]. exists [3; 1]. cbn. repeat split; lia.
Qed.

(** C88: objects that behave alike are interchangeable, and laws about the adaptors. *)
From Coq Require Import Bool List Arith ZArith Lia.
From Coq.Init Require Import Byte.
From Verif Require Import Prelude Traits BasicModel AdaptorModel ScramblerModel MergeModel CodecModel EndianModel TowerModel Contracts AdaptorSpec BasicProofs
  RulesSpec RulesProofs RulesAdaptorProofs SafeSpec AlikeSpec AlikeProofs AlikeLaws.
Import ListNotations.

(** All answers to a list of calls, permitted or not. *)
Definition p_dos {S T F E} (P : bulk_producer S T F E) (ops : list (pop T)) (s : S) : outcome (list (pans T F E)) :=
  omap snd (obeying (fun _ _ => true) (fun m _ _ => m) (p_do P) ops tt s).

(** Being alike is an equivalence. *)
Theorem C88_equivalence :
  (forall S T F E sl (P : bulk_producer S T F E) s, alike_producer sl P P s s) /\
  (forall S1 S2 T F E sl (P1 : bulk_producer S1 T F E) (P2 : bulk_producer S2 T F E) s1 s2,
     alike_producer sl P1 P2 s1 s2 -> alike_producer sl P2 P1 s2 s1) /\
  (forall S1 S2 S3 T F E sl (P1 : bulk_producer S1 T F E) (P2 : bulk_producer S2 T F E) (P3 : bulk_producer S3 T F E) s1 s2 s3,
     alike_producer sl P1 P2 s1 s2 -> alike_producer sl P2 P3 s2 s3 -> alike_producer sl P1 P3 s1 s3) /\
  (forall S T F E (C : bulk_consumer S T F E) s, alike_consumer C C s s) /\
  (forall S1 S2 T F E (C1 : bulk_consumer S1 T F E) (C2 : bulk_consumer S2 T F E) s1 s2, alike_consumer C1 C2 s1 s2 -> alike_consumer C2 C1 s2 s1) /\
  (forall S1 S2 S3 T F E (C1 : bulk_consumer S1 T F E) (C2 : bulk_consumer S2 T F E) (C3 : bulk_consumer S3 T F E) s1 s2 s3,
     alike_consumer C1 C2 s1 s2 -> alike_consumer C2 C3 s2 s3 -> alike_consumer C1 C3 s1 s3).
Proof.
  split; [intros; intros ops; reflexivity|]. split; [intros; now apply alike_sym|]. split; [intros; eapply alike_trans; eassumption|].
  split; [intros; intros ops; reflexivity|]. split; [intros; now apply alike_sym|]. intros; eapply alike_trans; eassumption.
Qed.
Print Assumptions C88_equivalence.
Example C88_equivalence_ex :
  ~ alike_producer false from_slice_producer from_slice_producer (from_slice_new [1; 2]) (from_slice_new [1; 3]) /\
  ~ alike_consumer (limit_consumer (into_vec_consumer 0)) (limit_consumer (into_vec_consumer 0)) (limit_new (into_vec_from_vec []) 1) (limit_new (into_vec_from_vec []) 2).
Proof.
  split; intros H.
  - specialize (H [PProduce; PProduce]). discriminate H.
  - specialize (H [CConsume 5; CConsume 5]). discriminate H.
Qed.

(** ** Interchangeable *)

(** In the adaptors, *)
Theorem C88_adaptors :
  (forall S1 S2 T F E sl (P1 : bulk_producer S1 T F E) (P2 : bulk_producer S2 T F E) s1 s2, alike_producer sl P1 P2 s1 s2 ->
     (forall n, alike_producer sl (limit_producer P1) (limit_producer P2) (limit_new s1 n) (limit_new s2 n)) /\
     (forall B (g : F -> B), alike_producer sl (map_final_producer P1) (map_final_producer P2) (with_fun_new s1 g) (with_fun_new s2 g)) /\
     (forall B (g : E -> B), alike_producer sl (map_error_producer P1) (map_error_producer P2) (with_fun_new s1 g) (with_fun_new s2 g)) /\
     alike_producer sl (invariant_producer P1) (invariant_producer P2) (invariant_new s1) (invariant_new s2)) /\
  (forall S1 S2 T F E (C1 : bulk_consumer S1 T F E) (C2 : bulk_consumer S2 T F E) s1 s2, alike_consumer C1 C2 s1 s2 ->
     (forall n, alike_consumer (limit_consumer C1) (limit_consumer C2) (limit_new s1 n) (limit_new s2 n)) /\
     (forall B (g : B -> F), alike_consumer (map_final_consumer C1) (map_final_consumer C2) (with_fun_new s1 g) (with_fun_new s2 g)) /\
     (forall B (g : E -> B), alike_consumer (map_error_consumer C1) (map_error_consumer C2) (with_fun_new s1 g) (with_fun_new s2 g)) /\
     alike_consumer (invariant_consumer C1) (invariant_consumer C2) (invariant_new s1) (invariant_new s2)) /\
  (forall S1 S2 T F E U W sl (P1 : buffered_producer S1 T F E) (P2 : buffered_producer S2 T F E) (f : W -> T -> W * U) s1 s2 w,
     alike_buffered_producer sl P1 P2 s1 s2 ->
     alike_buffered_producer sl (map_item_producer P1 f) (map_item_producer P2 f) (mk_map_item s1 w) (mk_map_item s2 w)) /\
  (forall S1 S2 T F E U W (C1 : buffered_consumer S1 T F E) (C2 : buffered_consumer S2 T F E) (f : W -> U -> W * T) s1 s2 w,
     alike_buffered_consumer C1 C2 s1 s2 ->
     alike_buffered_consumer (map_item_consumer C1 f) (map_item_consumer C2 f) (mk_map_item s1 w) (mk_map_item s2 w)) /\
  (forall S1 S2 T F E sl (P1 : bulk_producer S1 T F E) (P2 : bulk_producer S2 T F E) s1 s2,
     alike_producer sl P1 P2 s1 s2 -> alike_buffered_producer sl P1 P2 s1 s2) /\
  (forall S1 S2 T F E (C1 : bulk_consumer S1 T F E) (C2 : bulk_consumer S2 T F E) s1 s2,
     alike_consumer C1 C2 s1 s2 -> alike_buffered_consumer C1 C2 s1 s2).
Proof.
  split.
  { intros S1 S2 T F E sl P1 P2 s1 s2 H. split; [intros n; now apply limit_producer_alike|]. split; [intros B g; now apply map_final_producer_alike|].
    split; [intros B g; now apply map_error_producer_alike|now apply invariant_producer_alike]. }
  split.
  { intros S1 S2 T F E C1 C2 s1 s2 H. split; [intros n; now apply limit_consumer_alike|]. split; [intros B g; now apply map_final_consumer_alike|].
    split; [intros B g; now apply map_error_consumer_alike|now apply invariant_consumer_alike]. }
  split; [intros; now apply map_item_producer_alike|]. split; [intros; now apply map_item_consumer_alike|].
  split; [intros S1 S2 T F E sl P1 P2 s1 s2 H; exact (alike_p_buffered H)|intros S1 S2 T F E C1 C2 s1 s2 H; exact (alike_c_buffered H)].
Qed.
Print Assumptions C88_adaptors.

(** in the scramblers, in the release and in the debug build, unless a producer scrambler slurps where that makes a difference, *)
Theorem C88_scramblers :
  (forall S1 S2 T F E dbg fuel sl (P1 : bulk_producer S1 T F E) (P2 : bulk_producer S2 T F E) x0 s1 s2 pat cap,
     sl = true \/ ~ In ScSlurp pat -> alike_producer sl P1 P2 s1 s2 ->
     alike_producer false (pscr_producer dbg fuel P1) (pscr_producer dbg fuel P2) (pscr_new_with_capacity x0 s1 pat cap) (pscr_new_with_capacity x0 s2 pat cap)) /\
  (forall S1 S2 T F E dbg x0 fuel (C1 : bulk_consumer S1 T F E) (C2 : bulk_consumer S2 T F E) s1 s2 pat cap, alike_consumer C1 C2 s1 s2 ->
     alike_consumer (cscr_consumer dbg x0 fuel C1) (cscr_consumer dbg x0 fuel C2) (cscr_new_with_capacity x0 s1 pat cap) (cscr_new_with_capacity x0 s2 pat cap)).
Proof. split; [exact pscr_producer_alike|exact @cscr_consumer_alike]. Qed.
Print Assumptions C88_scramblers.

(** in towers of these, *)
Theorem C88_towers :
  (forall T F E G S1 S2 sl (t : ptower T F E G) (P1 : bulk_producer S1 T F E) (P2 : bulk_producer S2 T F E) s1 s2, pt_slurps_well sl t ->
     alike_producer sl P1 P2 s1 s2 -> alike_producer (pt_slurps sl t) (pt_producer P1 t) (pt_producer P2 t) (pt_new s1 t) (pt_new s2 t)) /\
  (forall T F E G B S1 S2 (t : ctower F E G B) (C1 : bulk_consumer S1 T F E) (C2 : bulk_consumer S2 T F E) s1 s2,
     alike_consumer C1 C2 s1 s2 -> alike_consumer (ct_consumer C1 t) (ct_consumer C2 t) (ct_new s1 t) (ct_new s2 t)).
Proof. split; [exact ptower_alike|exact ctower_alike]. Qed.
Print Assumptions C88_towers.

(** in Merge, whatever is ready when, *)
Theorem C88_merge : forall S1 S2 S1' S2' T F E sl1 sl2 (P1 : buffered_producer S1 T F E) (P2 : buffered_producer S2 T F E)
    (P1' : buffered_producer S1' T F E) (P2' : buffered_producer S2' T F E) s1 s2 s1' s2',
  alike_buffered_producer sl1 P1 P1' s1 s1' -> alike_buffered_producer sl2 P2 P2' s2 s2' ->
  alike_merge P1 P2 P1' P2' (merge_new s1 s2) (merge_new s1' s2').
Proof. exact merge_alike. Qed.
Print Assumptions C88_merge.

(** in the pipes, where a consumer that counts honestly is needed for the bulk ones, *)
Theorem C88_pipes :
  (forall SP1 SP2 SC1 SC2 T F PE CE sl (P1 : buffered_producer SP1 T F PE) (P2 : buffered_producer SP2 T F PE)
     (C1 : buffered_consumer SC1 T F CE) (C2 : buffered_consumer SC2 T F CE) sp1 sp2 sc1 sc2,
     alike_buffered_producer sl P1 P2 sp1 sp2 -> alike_buffered_consumer C1 C2 sc1 sc2 ->
     (forall fuel, both (pipes_alike (fun _ => False) (alike_buffered_producer sl P1 P2) (alike_buffered_consumer C1 C2))
        (pipe fuel P1 C1 sp1 sc1) (pipe fuel P2 C2 sp2 sc2)) /\
     (forall count, both (pipes_alike (fun n => n = count) (alike_buffered_producer sl P1 P2) (alike_buffered_consumer C1 C2))
        (pipe_at_most P1 C1 count sp1 sc1) (pipe_at_most P2 C2 count sp2 sc2))) /\
  (forall SP1 SP2 SC1 SC2 T F PE CE sl (P1 : bulk_producer SP1 T F PE) (P2 : bulk_producer SP2 T F PE)
     (C1 : bulk_consumer SC1 T F CE) (C2 : bulk_consumer SC2 T F CE) sp1 sp2 sc1 sc2,
     honest_count C1 -> alike_producer sl P1 P2 sp1 sp2 -> alike_consumer C1 C2 sc1 sc2 ->
     (forall fuel, both (pipes_alike (fun _ => False) (alike_producer sl P1 P2) (alike_consumer C1 C2))
        (bulk_pipe fuel P1 C1 sp1 sc1) (bulk_pipe fuel P2 C2 sp2 sc2)) /\
     (forall fuel count, both (pipes_alike (fun n => n = count) (alike_producer sl P1 P2) (alike_consumer C1 C2))
        (bulk_pipe_at_most fuel P1 C1 count sp1 sc1) (bulk_pipe_at_most fuel P2 C2 count sp2 sc2))).
Proof.
  split.
  - intros SP1 SP2 SC1 SC2 T F PE CE sl P1 P2 C1 C2 sp1 sp2 sc1 sc2 Hp Hc. split.
    + intros fuel. now apply pipe_alike.
    + intros count. exact (@pipe_at_most_alike _ _ _ _ _ _ _ _ sl P1 P2 C1 C2 count 0 sp1 sp2 sc1 sc2 Hp Hc).
  - intros SP1 SP2 SC1 SC2 T F PE CE sl P1 P2 C1 C2 sp1 sp2 sc1 sc2 Hh Hp Hc. split.
    + intros fuel. exact (@bulk_pipe_alike _ _ _ _ _ _ _ _ sl P1 P2 C1 C2 Hh fuel sp1 sp2 sc1 sc2 0 0 0 Hp Hc).
    + intros fuel count. exact (@bulk_pipe_at_most_alike _ _ _ _ _ _ _ _ sl P1 P2 C1 C2 Hh fuel count 0 sp1 sp2 sc1 sc2 0 0 0 (Nat.le_0_l _) Hp Hc).
Qed.
Print Assumptions C88_pipes.

(** in the functions on whole slices, *)
Theorem C88_slices :
  (forall S1 S2 T F E (C1 : buffered_consumer S1 T F E) (C2 : buffered_consumer S2 T F E) buf s1 s2, alike_buffered_consumer C1 C2 s1 s2 ->
     both (fun x y => snd x = snd y /\ (is_ok (snd x) = true -> alike_buffered_consumer C1 C2 (fst x) (fst y)))
       (consume_full_slice C1 buf s1) (consume_full_slice C2 buf s2)) /\
  (forall S1 S2 T F E (C1 : bulk_consumer S1 T F E) (C2 : bulk_consumer S2 T F E) fuel buf s1 s2, alike_consumer C1 C2 s1 s2 ->
     both (fun x y => snd x = snd y /\ (is_ok (snd x) = true -> alike_consumer C1 C2 (fst x) (fst y)))
       (bulk_consume_full_slice fuel C1 buf s1) (bulk_consume_full_slice fuel C2 buf s2)) /\
  (forall S1 S2 T F E sl (P1 : buffered_producer S1 T F E) (P2 : buffered_producer S2 T F E) buf s1 s2, alike_buffered_producer sl P1 P2 s1 s2 ->
     both (fun x y => snd x = snd y /\ (is_ok (snd (snd x)) = true -> alike_buffered_producer sl P1 P2 (fst x) (fst y)))
       (overwrite_full_slice P1 buf s1) (overwrite_full_slice P2 buf s2)) /\
  (forall S1 S2 T F E sl (P1 : bulk_producer S1 T F E) (P2 : bulk_producer S2 T F E) fuel buf s1 s2, alike_producer sl P1 P2 s1 s2 ->
     both (fun x y => snd x = snd y /\ (is_ok (snd (snd x)) = true -> alike_producer sl P1 P2 (fst x) (fst y)))
       (bulk_overwrite_full_slice fuel P1 buf s1) (bulk_overwrite_full_slice fuel P2 buf s2)).
Proof.
  split; [intros S1 S2 T F E C1 C2 buf s1 s2 H; now apply consume_full_slice_alike|].
  split; [intros S1 S2 T F E C1 C2 fuel buf s1 s2 H; exact (@bulk_consume_full_slice_alike _ _ _ _ _ C1 C2 fuel 0 buf s1 s2 0 0 H)|].
  split; [intros S1 S2 T F E sl P1 P2 buf s1 s2 H; now apply overwrite_full_slice_alike|].
  intros S1 S2 T F E sl P1 P2 fuel buf s1 s2 H. exact (@bulk_overwrite_full_slice_alike _ _ _ _ _ sl P1 P2 fuel 0 buf s1 s2 0 H).
Qed.
Print Assumptions C88_slices.

(** and under every codec that obeys the rules, such as those of endian.rs. *)
Theorem C88_endian : forall w, uniform_encode (endian_encode w) /\ uniform_decode (endian_decode w).
Proof. intros w. split; [exact (@endian_encode_uniform w)|exact (@endian_decode_uniform w)]. Qed.
Print Assumptions C88_endian.
Theorem C88_codecs :
  (forall S1 S2 F E V (encode : encode_fn V) (C1 : bulk_consumer S1 byte F E) (C2 : bulk_consumer S2 byte F E) s1 s2,
     uniform_encode encode -> obedient_encode encode -> alike_consumer C1 C2 s1 s2 ->
     alike_buffered_consumer (encoder encode C1) (encoder encode C2) s1 s2) /\
  (forall S1 S2 F E V RT (encode : RT -> encode_fn V) (C1 : bulk_consumer S1 byte F E) (C2 : bulk_consumer S2 byte F E) s1 s2 r,
     (forall r, uniform_encode (encode r)) -> (forall r, obedient_encode (encode r)) -> alike_consumer C1 C2 s1 s2 ->
     alike_buffered_consumer (relative_encoder encode C1) (relative_encoder encode C2) (mk_relative s1 r) (mk_relative s2 r)) /\
  (forall S1 S2 F E V O (decode : decode_fn V O) (P1 : bulk_producer S1 byte F E) (P2 : bulk_producer S2 byte F E) s1 s2,
     uniform_decode decode -> obedient_decode decode -> alike_producer true P1 P2 s1 s2 ->
     alike_buffered_producer true (decoder decode P1) (decoder decode P2) s1 s2) /\
  (forall S1 S2 F E V O RT (decode : RT -> decode_fn V O) (P1 : bulk_producer S1 byte F E) (P2 : bulk_producer S2 byte F E) s1 s2 r,
     (forall r, uniform_decode (decode r)) -> (forall r, obedient_decode (decode r)) -> alike_producer true P1 P2 s1 s2 ->
     alike_buffered_producer true (relative_decoder decode P1) (relative_decoder decode P2) (mk_relative s1 r) (mk_relative s2 r)).
Proof.
  split; [intros; now apply encoder_alike|]. split; [intros; now apply relative_encoder_alike|].
  split; [intros; now apply decoder_alike|]. intros; now apply relative_decoder_alike.
Qed.
Print Assumptions C88_codecs.

(** ** Laws *)

(** Invariant checkers can be removed from correct programs (wrapper/invariant.rs replaces them by Noops in release builds), *)
Theorem C88_invariant :
  (forall S T F E sl (P : bulk_producer S T F E) s, default_producer P ->
     alike_producer sl (invariant_producer P) P (invariant_new s) s /\ alike_producer sl (invariant_noop_producer P) P s s) /\
  (forall S T F E (C : bulk_consumer S T F E) s, default_consumer C ->
     alike_consumer (invariant_consumer C) C (invariant_new s) s /\ alike_consumer (invariant_noop_consumer C) C s s).
Proof.
  split.
  - intros S T F E sl P s H. split; [now apply invariant_producer_law|now apply noop_producer_law].
  - intros S T F E C s H. split; [now apply invariant_consumer_law|now apply noop_consumer_law].
Qed.
Print Assumptions C88_invariant.
(** wherever in a tower they are, *)
Theorem C88_unchecked :
  (forall T F E G S sl (t : ptower T F E G) (P : bulk_producer S T F E) s, pt_slurps_well sl t -> default_producer P ->
     alike_producer (pt_slurps sl t) (pt_producer P t) (pt_producer P (pt_unchecked t)) (pt_new s t) (pt_new s (pt_unchecked t))) /\
  (forall T F E G B S (t : ctower F E G B) (C : bulk_consumer S T F E) s, default_consumer C ->
     alike_consumer (ct_consumer C t) (ct_consumer C (ct_unchecked t)) (ct_new s t) (ct_new s (ct_unchecked t))).
Proof. split; [exact ptower_unchecked|exact ctower_unchecked]. Qed.
Print Assumptions C88_unchecked.
(** but not from programs that break the rules. *)
Theorem C88_invariant_refuted : exists S T F E (P : bulk_producer S T F E) s (ops : list (pop T)), default_producer P /\
  p_dos (invariant_producer P) ops (invariant_new s) = Panic /\ exists x, p_dos P ops s = Ret x.
Proof.
  exists _, nat, _, _, from_slice_producer, (from_slice_new []), [PProduce; PProduce]. split; [intros ? ?; reflexivity|]. split; [reflexivity|]. eexists. reflexivity.
Qed.
Print Assumptions C88_invariant_refuted.

(** MapFinal, *)
Theorem C88_map_final :
  (forall S T F E sl (P : bulk_producer S T F E) s, default_producer P -> alike_producer sl (map_final_producer P) P (with_fun_new s (fun f : F => f)) s) /\
  (forall S T F E (C : bulk_consumer S T F E) s, default_consumer C -> alike_consumer (map_final_consumer C) C (with_fun_new s (fun f : F => f)) s) /\
  (forall S T F E B D sl (P : bulk_producer S T F E) s (g : F -> B) (h : B -> D),
     alike_producer sl (map_final_producer (map_final_producer P)) (map_final_producer P) (with_fun_new (with_fun_new s g) h) (with_fun_new s (fun f => h (g f)))) /\
  (forall S T F E B D (C : bulk_consumer S T F E) s (g : B -> F) (h : D -> B),
     alike_consumer (map_final_consumer (map_final_consumer C)) (map_final_consumer C) (with_fun_new (with_fun_new s g) h) (with_fun_new s (fun d => g (h d)))).
Proof.
  split; [intros; now apply map_final_id_law|]. split; [intros; now apply map_final_id_consumer_law|].
  split; [intros; apply map_final_map_final_law|intros; apply map_final_map_final_consumer_law].
Qed.
Print Assumptions C88_map_final.

(** Limit, *)
Theorem C88_limit :
  (forall S T F E sl (P : bulk_producer S T F E) s n m,
     alike_producer sl (map_final_producer (limit_producer (limit_producer P))) (limit_producer P)
       (with_fun_new (limit_new (limit_new s m) n) either_limit) (limit_new s (Nat.min n m))) /\
  (forall S T F E B sl (P : bulk_producer S T F E) s n (g : F -> B),
     alike_producer sl (limit_producer (map_final_producer P)) (map_final_producer (limit_producer P))
       (limit_new (with_fun_new s g) n) (with_fun_new (limit_new s n) (option_map g))) /\
  (forall S T F E B (C : bulk_consumer S T F E) s n (g : B -> F),
     alike_consumer (limit_consumer (map_final_consumer C)) (map_final_consumer (limit_consumer C)) (limit_new (with_fun_new s g) n) (with_fun_new (limit_new s n) g)) /\
  (forall T sl (l : list T) n,
     alike_producer sl (limit_producer from_slice_producer) (map_final_producer from_slice_producer)
       (limit_new (from_slice_new l) n) (with_fun_new (from_slice_new (firstn n l)) (fun u : unit => if n <=? length l then None else Some u))).
Proof.
  split; [intros; apply limit_limit_law|]. split; [intros; apply limit_map_final_law|]. split; [intros; apply limit_map_final_consumer_law|].
  intros; now apply limit_from_slice_law.
Qed.
Print Assumptions C88_limit.

(** MapItem, *)
Theorem C88_map_item :
  (forall S T F E U V W X sl (P : buffered_producer S T F E) (f : W -> T -> W * U) (g : X -> U -> X * V) s w x,
     alike_buffered_producer sl (map_item_producer (map_item_producer P f) g) (map_item_producer P (after f g))
       (mk_map_item (mk_map_item s w) x) (mk_map_item s (w, x))) /\
  (forall S T F E U V W X (C : buffered_consumer S T F E) (g : X -> U -> X * T) (f : W -> V -> W * U) s w x,
     alike_buffered_consumer (map_item_consumer (map_item_consumer C g) f) (map_item_consumer C (after f g))
       (mk_map_item (mk_map_item s x) w) (mk_map_item s (w, x))).
Proof. split; [intros; apply map_item_map_item_law|intros; apply map_item_map_item_consumer_law]. Qed.
Print Assumptions C88_map_item.

(** and basic producers. *)
Theorem C88_basics :
  (forall T F sl (items : list T) (f : F),
     alike_producer sl (@test_producer T F infallible) (map_final_producer from_slice_producer)
       (test_producer_build items (Ok f) None None) (with_fun_new (from_slice_new items) (fun _ => f))) /\
  (forall T F sl (f : F),
     alike_producer sl (@empty_producer T F infallible) (map_final_producer from_slice_producer) (empty_new f) (with_fun_new (from_slice_new []) (fun _ => f))).
Proof. split; [intros; apply test_producer_law|intros; apply empty_law]. Qed.
Print Assumptions C88_basics.

(** ** Cases *)

(** A tower over a checked and limited producer may use the plain one instead, and its own checker may go too. *)
Definition alike_tower : ptower nat (option unit) infallible (option (option unit)) :=
  PTLimit 3 (PTInvariant (PTScramble false 20 0 [ScProduce; ScConsiderProduced 2; ScSlurp] 4 PTBase)).
Example C88_towers_ex :
  let P1 := invariant_producer (limit_producer (@from_slice_producer nat)) in
  let P2 := limit_producer (@from_slice_producer nat) in
  let s := limit_new (from_slice_new [1; 2; 3; 4; 5; 6]) 5 in
  alike_producer true P1 P2 (invariant_new s) s /\ pt_slurps_well true alike_tower /\
  alike_producer false (pt_producer P1 alike_tower) (pt_producer P2 (pt_unchecked alike_tower)) (pt_new (invariant_new s) alike_tower) (pt_new s (pt_unchecked alike_tower)) /\
  p_dos (pt_producer P1 alike_tower) [PProduce; PExpose; PConsider 1; PProduce; PProduce] (pt_new (invariant_new s) alike_tower)
  = Ret [PAItem (Ok (inl 1)); PASlice (Ok (inl [2; 3])); PAUnit (Ok tt); PAItem (Ok (inl 3)); PAItem (Ok (inr None))].
Proof.
  intros P1 P2 s. assert (H : alike_producer true P1 P2 (invariant_new s) s) by (apply invariant_producer_law; intros ? ?; reflexivity).
  split; [exact H|]. split; [exact (conj (or_introl eq_refl) Logic.I)|]. split.
  - eapply alike_trans; [exact (@ptower_alike _ _ _ _ _ _ true alike_tower P1 P2 _ _ (conj (or_introl eq_refl) Logic.I) H)|].
    refine (@ptower_unchecked _ _ _ _ _ true alike_tower P2 s (conj (or_introl eq_refl) Logic.I) _). intros ? ?; reflexivity.
  - vm_compute. reflexivity.
Qed.

(** The condition on the scramblers is needed: without the check of its inner producer, this one tolerates [slurp] after the end. *)
Definition unslurpable : bulk_producer (from_slice nat) nat unit infallible :=
  bulk_producer_of from_slice_produce (fun _ => Panic) from_slice_expose from_slice_consider.
Theorem C88_scrambler_slurp_refuted : exists S T F E (P1 P2 : bulk_producer S T F E) s x0 pat cap,
  alike_producer false P1 P2 s s /\
  ~ alike_producer false (pscr_producer false 9 P1) (pscr_producer false 9 P2) (pscr_new_with_capacity x0 s pat cap) (pscr_new_with_capacity x0 s pat cap).
Proof.
  exists _, nat, _, _, unslurpable, from_slice_producer, (from_slice_new [1]), 0, [ScSlurp; ScProduce], 2. split.
  - apply alike_same with (good := fun _ => True); [|exact Logic.I]. intros m o s _ Ho. split; [|auto]. destruct o; try reflexivity.
    unfold p_calls in Ho. rewrite andb_false_r in Ho. discriminate.
  - intros H. specialize (H [PProduce]). discriminate H.
Qed.
Print Assumptions C88_scrambler_slurp_refuted.

(** A consumer that boasts makes a bulk pipe break a rule, and then it can matter whether a checker is there. *)
Definition counter : bulk_producer nat nat unit infallible :=
  bulk_producer_of (fun s => Ret (s, Ok (inr tt))) (fun s => Ret (s, Ok tt))
    (fun s => if 3 <=? s then Ret (s, Ok (inr tt)) else Ret (s, Ok (inl [s]))) (fun n s => Ret (s + n, Ok tt)).
Definition alike_boaster : bulk_consumer unit nat unit infallible :=
  mk_bulk_consumer (mk_buffered_consumer (mk_consumer (fun _ s => Ret (s, Ok tt)) (fun _ s => Ret (s, Ok tt))) (fun s => Ret (s, Ok tt)))
    (fun s => Ret (s, Ok 1)) (fun _ s => s) (fun _ s => Ret (s, Ok tt)) (fun buf s => Ret (s, Ok (length buf + 1))).
Theorem C88_honesty_needed : exists SP1 SP2 SC T F PE CE (P1 : bulk_producer SP1 T F PE) (P2 : bulk_producer SP2 T F PE) (C : bulk_consumer SC T F CE) s1 s2 sc,
  alike_producer true P1 P2 s1 s2 /\ bulk_pipe 9 P1 C s1 sc = Panic /\ exists x, bulk_pipe 9 P2 C s2 sc = Ret x.
Proof.
  exists _, _, _, nat, unit, infallible, infallible, (invariant_producer counter), counter, alike_boaster, (invariant_new 0), 0, tt.
  split; [apply invariant_producer_law; intros ? ?; reflexivity|]. split; [reflexivity|]. eexists. reflexivity.
Qed.
Print Assumptions C88_honesty_needed.

(** Removing an adaptor also removes its default bulk method; a producer that overrides it in another way notices. *)
Definition bulky : bulk_producer nat nat unit infallible :=
  mk_bulk_producer counter (p_expose counter) (p_consider counter) (fun buf s => Ret (s + 1, (buf, Ok (inl 0)))).
Theorem C88_default_needed : exists S T F E (P : bulk_producer S T F E) s, ~ alike_producer false (invariant_producer P) P (invariant_new s) s.
Proof.
  exists nat, nat, unit, infallible, bulky, 0. intros H. specialize (H [PBulkProduce [7; 7]]). discriminate H.
Qed.
Print Assumptions C88_default_needed.

(** Limit to 0 is not always Empty: what it forwards to the inner producer can make a difference. *)
Definition touchy : bulk_producer unit nat unit infallible :=
  bulk_producer_of (fun s => Ret (s, Ok (inr tt))) (fun s => Panic) (fun s => Ret (s, Ok (inr tt))) (fun _ s => Ret (s, Ok tt)).
Theorem C88_limit_0_refuted : exists S T F E (P : bulk_producer S T F E) s,
  ~ alike_producer true (limit_producer P) empty_producer (limit_new s 0) (empty_new None).
Proof. exists _, _, _, _, touchy, tt. intros H. specialize (H [PSlurp]). discriminate H. Qed.
Print Assumptions C88_limit_0_refuted.

(** Two limits, and the one that is reached first. *)
Example C88_limit_ex :
  let P := map_final_producer (limit_producer (limit_producer (@from_slice_producer nat))) in
  let s := with_fun_new (limit_new (limit_new (from_slice_new [1; 2; 3]) 5) 2) either_limit in
  p_dos P [PProduce; PProduce; PProduce] s = p_dos (limit_producer from_slice_producer) [PProduce; PProduce; PProduce] (limit_new (from_slice_new [1; 2; 3]) 2) /\
  p_dos (limit_producer from_slice_producer) [PProduce; PProduce] (limit_new (from_slice_new [7]) 1)
  = Ret [PAItem (Ok (inl 7)); PAItem (Ok (inr None))] /\
  p_dos (limit_producer from_slice_producer) [PProduce; PProduce] (limit_new (from_slice_new [7]) 2)
  = Ret [PAItem (Ok (inl 7)); PAItem (Ok (inr (Some tt)))].
Proof. repeat split. Qed.

(** Two numberings of the items, fused. *)
Example C88_map_item_ex :
  let f := fun w (x : nat) => (w + 1, (w, x)) in let g := fun (v : nat) (x : nat * nat) => (v + fst x, (v, snd x)) in
  fst (bp_run (map_item_producer (map_item_producer (@from_slice_producer nat) f) g) [BProduce; BSlurp; BProduce; BProduce] (mk_map_item (mk_map_item (from_slice_new [5; 6; 7]) 1) 0))
  = [BPItem (Ok (inl (0, 5))); BPUnit (Ok tt); BPItem (Ok (inl (1, 6))); BPItem (Ok (inl (3, 7)))].
Proof. reflexivity. Qed.

(** A decoder over a checked slice. *)
Example C88_codecs_ex :
  alike_buffered_producer true (decoder (endian_decode U16BE) (invariant_producer (@from_slice_producer byte))) (decoder (endian_decode U16BE) (@from_slice_producer byte))
    (invariant_new (from_slice_new [x01; x02; x03])) (from_slice_new [x01; x02; x03]).
Proof.
  refine (proj1 (proj2 (proj2 C88_codecs)) _ _ _ _ _ _ _ _ _ _ _ _ _ _).
  - exact (proj2 (C88_endian U16BE)).
  - exact (endian_decode_obedient U16BE).
  - apply invariant_producer_law. intros ? ?. reflexivity.
Qed.

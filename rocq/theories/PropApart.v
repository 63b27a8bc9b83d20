(** Property C98: taking towers of adaptors apart. *)
From Coq Require Import Bool List Arith Lia.
From Verif Require Import Prelude ListFacts Traits Contracts ContractFacts PipeSpec BasicModel BasicSpec BasicProofs Reference
  AdaptorModel AdaptorSpec ScramblerModel TowerModel TowerSpec TowerProofs ApartModel ApartSpec ApartProofs PropTower.
Import ListNotations.

(** *** C98. Wrap a producer of [xs] and then [l] into any tower, call its methods in any permitted way, and take
    it apart. What came out of the tower, what the scramblers held back, and what the inner producer still has to
    produce are together exactly [xs], in order; the scramblers hold back no more than their capacities. *)
Theorem C98_producer_tower_taken_apart :
  forall (S T F E G : Type) (P : bulk_producer S T F E) R D s xs l k (t : ptower T F E G) h s' a',
  lawful_producer P R D -> R s xs l k -> pt_ok (lawful_slurp P R D) t xs l ->
  ~ In PSlurp (map fst h) \/ (lawful_slurp P R D /\ pt_slurps t xs l) ->
  p_history (pt_producer P t) (pt_new s t) (PActive (pt_items t xs) (pt_last t (length xs) l) 0) h s' a' ->
  exists lost rest, xs = p_emitted [] h ++ lost ++ rest /\ length lost <= pt_capacity t /\
    (R (pt_into_inner t s') rest l 0 \/ (D (pt_into_inner t s') /\ rest = [])).
Proof. exact pt_taken_apart. Qed.
Print Assumptions C98_producer_tower_taken_apart.

(** Without scramblers, the inner producer goes on with the very next item, unless it has ended. *)
Theorem C98_producer_goes_on :
  forall (S T F E G : Type) (P : bulk_producer S T F E) R D s xs l k (t : ptower T F E G) h s' a',
  lawful_producer P R D -> R s xs l k -> pt_ok (lawful_slurp P R D) t xs l -> pt_capacity t = 0 ->
  ~ In PSlurp (map fst h) \/ (lawful_slurp P R D /\ pt_slurps t xs l) ->
  p_history (pt_producer P t) (pt_new s t) (PActive (pt_items t xs) (pt_last t (length xs) l) 0) h s' a' ->
  exists rest, xs = p_emitted [] h ++ rest /\
    ((exists s1 s2, emits P (pt_into_inner t s') rest s1 /\ p_produce P s1 = Ret (s2, report_last l)) \/
     (D (pt_into_inner t s') /\ rest = [])).
Proof.
  intros S T F E G P R D s xs l k t h s' a' L HR OK Hc LS HH.
  destruct (@pt_taken_apart _ _ _ _ _ _ _ _ _ _ _ _ _ _ _ _ L HR OK LS HH) as (lost & rest & Hx & Hl & Hr).
  rewrite Hc in Hl. destruct lost; [|cbn in Hl; lia]. exists rest. split; [exact Hx|].
  destruct Hr as [Hr|Hr]; [left|now right]. exact (@lawful_emits_all _ _ _ _ _ _ _ _ _ _ _ L Hr).
Qed.
Print Assumptions C98_producer_goes_on.

(** For consumers: the inner consumer has consumed exactly what the tower has consumed, and can be used further unless it
    reported an error or was closed. *)
Theorem C98_consumer_tower_taken_apart :
  forall (S A T F E G B : Type) (C : bulk_consumer S T F E) (M : machine A T F E) R D (x0 : T) s a k w (t : ctower F E G B) h s' c',
  lawful_consumer C M R D -> R s a k w ->
  c_history (ct_consumer C t) (ct_machine M t) (ct_new s t) (CActive (ct_init a t) 0 []) h s' c' ->
  match c' with
  | CActive b _ _ => R (ct_into_inner t s') (ct_core t b) 0 [] /\
      (passive M -> m_feed M (c_consumed [] h) a = (ct_core t b, length (c_consumed [] h), None))
  | CEnded b => D (ct_into_inner t s') (ct_core t b) \/ R (ct_into_inner t s') (ct_core t b) 0 []
  end.
Proof. exact ct_taken_apart. Qed.
Print Assumptions C98_consumer_tower_taken_apart.

(** With scramblers items do get lost: of seven items one is taken out, three are lost in the buffers of two
    scramblers, and the inner producer goes on with the fifth. *)
Definition scrambled_twice : ptower nat nat nat nat :=
  PTScramble true 100 0 [ScProduce; ScConsiderProduced 5] 2 (PTScramble true 100 0 [ScConsiderProduced 7] 3 PTBase).

Theorem C98_nothing_lost_refuted :
  exists (t : ptower nat nat nat nat) (s : test_producer_state nat nat nat) xs l h s' a' rest,
    tp_rel s xs l 0 /\ pt_ok (lawful_slurp (@test_producer nat nat nat) (@tp_rel nat nat nat) (@tp_end nat nat nat)) t xs l /\
    p_history (pt_producer (@test_producer nat nat nat) t) (pt_new s t) (PActive (pt_items t xs) (pt_last t (length xs) l) 0) h s' a' /\
    test_producer_remaining (pt_into_inner t s') = Ret rest /\ xs <> p_emitted [] h ++ rest.
Proof.
  exists scrambled_twice, example_source, [1; 2; 3; 4; 5; 6; 7], (Ok 9), [(PProduce, PAItem (Ok (inl 1)))].
  do 2 eexists. exists [5; 6; 7]. split; [|split; [|split; [|split]]].
  - apply tp_rel_build. repeat constructor; lia.
  - cbn. splits; auto; try lia.
    + intros n [H|[]]. injection H as <-. lia.
    + left. intros [H|[]]. discriminate.
    + intros n [H|[H|[]]]; [discriminate|]. injection H as <-. lia.
    + left. intros [H|[H|[]]]; discriminate.
  - run_p.
  - vm_compute. reflexivity.
  - vm_compute. discriminate.
Qed.
Print Assumptions C98_nothing_lost_refuted.

(** The same for consumers: a vector inside a scrambler, taken out after an item was consumed, is empty. *)
Theorem C98_consumer_scrambler_refuted :
  exists s' : cscr (into_vec nat) nat,
    c_consume (cscr_consumer true 0 100 (into_vec_consumer 0)) 1 (cscr_new_with_capacity 0 into_vec_new [ScConsume] 2) = Ret (s', Ok tt) /\
    into_vec_into_vec (cs_inner s') = [].
Proof. eexists. split; vm_compute; reflexivity. Qed.
Print Assumptions C98_consumer_scrambler_refuted.

(** The tower of C55 (a scrambler of capacity 2 under a limit of 3 and above one of 5), after three calls: the third item is
    held back. *)
Example C98_example :
  tp_rel example_source [1; 2; 3; 4; 5; 6; 7] (Ok 9) 0 /\
  pt_ok (lawful_slurp (@test_producer nat nat nat) (@tp_rel nat nat nat) (@tp_end nat nat nat)) example_tower [1; 2; 3; 4; 5; 6; 7] (Ok 9) /\
  pt_capacity example_tower = 2 /\
  exists s' a', p_history (pt_producer (@test_producer nat nat nat) example_tower) (pt_new example_source example_tower)
      (PActive [1; 2; 3] (Ok false) 0)
      [(PProduce, PAItem (Ok (inl 1))); (PExpose, PASlice (Ok (inl [2]))); (PConsider 1, PAUnit (Ok tt))] s' a' /\
    test_producer_remaining (pt_into_inner example_tower s') = Ret [4; 5; 6; 7].
Proof.
  split; [apply tp_rel_build; repeat constructor; lia|].
  split; [apply example_tower_ok, test_producer_slurp_lawful|]. split; [reflexivity|].
  do 2 eexists. split; [run_p|]. vm_compute. reflexivity.
Qed.

(** Two nested limits and the invariant wrapper, without scramblers: after the outer limit is reached, the inner producer
    still has the third item. *)
Example C98_example_goes_on :
  let t : ptower nat nat nat (option (option nat)) := PTLimit 2 (PTInvariant (PTLimit 5 PTBase)) in
  pt_capacity t = 0 /\ pt_slurps t [1; 2; 3; 4; 5; 6; 7] (Ok 9) /\
  exists s', p_history (pt_producer (@test_producer nat nat nat) t) (pt_new example_source t)
      (PActive [1; 2] (Ok None) 0)
      [(PSlurp, PAUnit (Ok tt)); (PBulkProduce [0; 0; 0], PABuf [1; 2; 0] (Ok (inl 2))); (PProduce, PAItem (Ok (inr None)))] s' PEnded /\
    test_producer_remaining (pt_into_inner t s') = Ret [3; 4; 5; 6; 7].
Proof.
  cbn zeta. split; [reflexivity|]. split; [cbn; splits; auto; intros; lia|].
  eexists. split; [run_p|]. vm_compute. reflexivity.
Qed.

(** A vector under a limit of 2, the invariant wrapper and a limit of 5: two items are accepted, a third one is refused,
    and the vector holds the two items. *)
Definition limited_twice : ctower unit infallible unit (option (option infallible)) := CTLimit 2 (CTInvariant (CTLimit 5 CTBase)).

Example C98_example_consumer :
  lawful_consumer (into_vec_consumer 0) (collect_machine nat unit infallible) (@iv_rel nat) (@iv_end nat) /\
  iv_rel (into_vec_from_vec [7]) [7] 0 [] /\ passive (collect_machine nat unit infallible) /\
  (exists s' b k w, c_history (ct_consumer (into_vec_consumer 0) limited_twice) (ct_machine (collect_machine nat unit infallible) limited_twice)
      (ct_new (into_vec_from_vec [7]) limited_twice) (CActive (ct_init [7] limited_twice) 0 [])
      [(CConsume 1, CAUnit (Ok tt)); (CBulkConsume [2; 3], CANat (Ok 1))] s' (CActive b k w) /\
    into_vec_into_vec (ct_into_inner limited_twice s') = [7; 1; 2] /\ ct_core limited_twice b = [7; 1; 2]) /\
  (exists s' b, c_history (ct_consumer (into_vec_consumer 0) limited_twice) (ct_machine (collect_machine nat unit infallible) limited_twice)
      (ct_new (into_vec_from_vec [7]) limited_twice) (CActive (ct_init [7] limited_twice) 0 [])
      [(CConsume 1, CAUnit (Ok tt)); (CConsume 2, CAUnit (Ok tt)); (CConsume 3, CAUnit (Err None))] s' (CEnded b) /\
    into_vec_into_vec (ct_into_inner limited_twice s') = [7; 1; 2]).
Proof.
  split; [apply into_vec_lawful|]. split; [apply iv_rel_from_vec|]. split; [intros a b [= ->]; reflexivity|]. split.
  - do 4 eexists. split; [run_c|]. split; vm_compute; reflexivity.
  - do 2 eexists. split; [run_c|]. vm_compute; reflexivity.
Qed.

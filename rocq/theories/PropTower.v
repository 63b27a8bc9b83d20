(** Property C55: towers of adaptors. *)
From Coq Require Import Bool List Arith Lia.
From Verif Require Import Prelude ListFacts Traits Contracts ContractFacts PipeSpec BasicModel BasicSpec BasicProofs Reference
  AdaptorModel AdaptorSpec ScramblerModel TowerModel TowerSpec TowerProofs.
Import ListNotations.

(** *** C55. A tower [t] around a producer of [xs] and then [l] is again a lawful producer: of the
    items that the smallest limit lets through, and then of the last value [pt_last]. Slurping
    is fine if the inner producer can be slurped, there is no scrambler, and no limit is reached
    exactly when an error is next. *)
Theorem C55_producer_tower_conforms :
  forall (S T F E G : Type) (P : bulk_producer S T F E) R D s xs l k (t : ptower T F E G) (ops : list (pop T)),
  lawful_producer P R D -> R s xs l k -> pt_ok (lawful_slurp P R D) t xs l ->
  ~ In PSlurp ops \/ (lawful_slurp P R D /\ pt_slurps t xs l) ->
  p_conforms (pt_producer P t) ops (pt_new s t) (PActive (pt_items t xs) (pt_last t (length xs) l) 0).
Proof.
  intros S T F E G P R D s xs l k t ops L HR OK LS.
  destruct (@pt_lawful _ _ _ _ _ _ _ _ _ _ _ _ t _ L HR (fun H => H) OK) as (R' & D' & L' & HR' & LS').
  apply (lawful_p_conforms ops (R := R') (D := D') (s := pt_new s t)
    (a := PActive (pt_items t xs) (pt_last t (length xs) l) 0)); auto.
  destruct LS as [LS|[LS1 LS2]]; auto.
Qed.
Print Assumptions C55_producer_tower_conforms.

(** Item by item: exactly the items that pass the smallest limit come out, and then the last value. *)
Theorem C55_producer_tower_emits :
  forall (S T F E G : Type) (P : bulk_producer S T F E) R D s xs l k (t : ptower T F E G),
  lawful_producer P R D -> R s xs l k -> pt_ok (lawful_slurp P R D) t xs l ->
  exists s' s'', emits (pt_producer P t) (pt_new s t) (pt_items t xs) s' /\
    p_produce (pt_producer P t) s' = Ret (s'', report_last (pt_last t (length xs) l)).
Proof.
  intros S T F E G P R D s xs l k t L HR OK.
  destruct (@pt_lawful _ _ _ _ _ _ _ _ _ _ _ _ t _ L HR (fun H => H) OK) as (R' & D' & L' & HR' & _).
  exact (@lawful_emits_all _ _ _ _ _ _ _ _ _ _ _ L' HR').
Qed.
Print Assumptions C55_producer_tower_emits.

(** Consumers: the machine of the whole tower is built from that of the inner consumer, and … *)
Theorem C55_consumer_tower_conforms :
  forall (S A T F E G B : Type) (C : bulk_consumer S T F E) (M : machine A T F E) R D s a k w (t : ctower F E G B)
    (ops : list (cop T G)),
  lawful_consumer C M R D -> R s a k w ->
  c_conforms (ct_consumer C t) (ct_machine M t) ops (ct_new s t) (CActive (ct_init a t) 0 []).
Proof.
  intros S A T F E G B C M R D s a k w t ops L HR.
  destruct (@ct_lawful _ _ _ _ _ _ _ _ _ _ _ _ _ _ _ t L HR) as (R' & D' & L' & HR').
  apply (lawful_c_conforms ops (R := R') (D := D') (s := ct_new s t) (a := CActive (ct_init a t) 0 [])); auto.
Qed.
Print Assumptions C55_consumer_tower_conforms.

(** … feeding the tower feeds the inner consumer the items that the smallest limit lets through. Errors of
    the inner consumer are told apart from reaching a limit. *)
Theorem C55_consumer_tower_feed :
  forall (A T F E G B : Type) (M : machine A T F E) (t : ctower F E G B) xs a,
  match m_feed M (match ct_limit t with None => xs | Some n => firstn n xs end) a with
  | (a', n, Some e) =>
      exists b, m_feed (ct_machine M t) xs (ct_init a t) = (b, n, Some (ct_error t e)) /\ ct_core t b = a'
  | (a', n, None) =>
      if n <? length xs
      then exists b e, m_feed (ct_machine M t) xs (ct_init a t) = (b, n, Some e) /\ ct_core t b = a' /\
             (forall e0, e <> ct_error t e0)
      else exists b, m_feed (ct_machine M t) xs (ct_init a t) = (b, n, None) /\ ct_core t b = a'
  end.
Proof.
  intros A T F E G B M t xs a. pose proof (ct_feed M t xs (ct_init a t)) as H.
  destruct (ct_init_left t a) as [H1 H2]. rewrite H1, H2 in H. exact H.
Qed.
Print Assumptions C55_consumer_tower_feed.

(** Closing passes the final value through all the functions on the way, whatever the limits. *)
Theorem C55_consumer_tower_close :
  forall (A T F E G B : Type) (M : machine A T F E) (t : ctower F E G B) f (b : ct_abs A t),
  exists b', m_finish (ct_machine M t) f b =
    (b', map_err (ct_error t) (snd (m_finish M (ct_final t f) (ct_core t b)))) /\
    ct_core t b' = fst (m_finish M (ct_final t f) (ct_core t b)).
Proof. exact ct_finish. Qed.
Print Assumptions C55_consumer_tower_close.

(** A limit inside a scrambler inside a mapped limit inside the invariant wrapper. *)
Definition example_tower : ptower nat nat nat bool :=
  PTInvariant (PTMapFinal (fun f => match f with Some _ => true | None => false end)
    (PTLimit 3 (PTScramble true 100 0 [ScProduce; ScSlurp; ScConsiderProduced 2] 2
      (PTMapFinal (fun f => f) (PTLimit 5 PTBase))))).

Definition example_source : test_producer_state nat nat nat :=
  test_producer_build [1; 2; 3; 4; 5; 6; 7] (Ok 9) (Some [2; 1; 3]) None.

Lemma example_tower_ok : forall P : Prop, P -> pt_ok P example_tower [1; 2; 3; 4; 5; 6; 7] (Ok 9).
Proof.
  intros P HP. cbn. splits; auto; try lia.
  - intros n [H|[H|[H|[]]]]; try discriminate. injection H as <-. lia.
  - right. splits; auto. cbn. intros; lia.
Qed.

Example C55_example :
  exists R D, lawful_producer (@test_producer nat nat nat) R D /\ R example_source [1; 2; 3; 4; 5; 6; 7] (Ok 9) 0 /\
    pt_ok (lawful_slurp (@test_producer nat nat nat) R D) example_tower [1; 2; 3; 4; 5; 6; 7] (Ok 9) /\
    pt_items example_tower [1; 2; 3; 4; 5; 6; 7] = [1; 2; 3] /\
    pt_last example_tower 7 (Ok 9) = Ok false /\
    exists s, p_history (pt_producer (@test_producer nat nat nat) example_tower) (pt_new example_source example_tower)
      (PActive [1; 2; 3] (Ok false) 0)
      [(PProduce, PAItem (Ok (inl 1))); (PExpose, PASlice (Ok (inl [2]))); (PConsider 1, PAUnit (Ok tt));
       (PBulkProduce [0; 0; 0], PABuf [3; 0; 0] (Ok (inl 1))); (PProduce, PAItem (Ok (inr false)))] s PEnded.
Proof.
  exists (@tp_rel nat nat nat), (@tp_end nat nat nat). splits.
  - apply test_producer_lawful.
  - apply tp_rel_build. repeat constructor; lia.
  - apply example_tower_ok, test_producer_slurp_lawful.
  - reflexivity.
  - reflexivity.
  - eexists. run_p.
Qed.

(** Without scramblers, with slurps. *)
Definition example_slurping_tower : ptower nat nat nat (option (option nat)) :=
  PTLimit 4 (PTInvariant (PTLimit 9 PTBase)).

Example C55_example_slurp :
  pt_slurps example_slurping_tower [1; 2] (Err 9) /\ pt_items example_slurping_tower [1; 2] = [1; 2] /\
  pt_last example_slurping_tower 2 (Err 9) = Err 9.
Proof. cbn. splits; auto; intros; lia. Qed.

(** A consumer that refuses its third item, below limits of 4 and 5, and below limits of 2 and 5. *)
Definition refuse_third : machine nat nat nat nat :=
  mk_machine (fun x n => if n <? 2 then (Datatypes.S n, Ok tt) else (n, Err 77))
    (fun f n => (f + n, Ok tt)) (fun n => (n, Ok tt)).

Definition example_ctower (n : nat) : ctower nat nat bool (option (option nat)) :=
  CTMapFinal (fun b : bool => if b then 100 else 0) (CTLimit n (CTInvariant (CTLimit 5 CTBase))).

Example C55_example_consumer :
  exists R D, lawful_consumer (ref_consumer refuse_third 2) refuse_third R D /\ R (0, []) 0 0 [] /\
    (exists b, m_feed (ct_machine refuse_third (example_ctower 4)) [1; 2; 3; 4; 5] (ct_init 0 (example_ctower 4)) =
       (b, 2, Some (Some (Some 77)))) /\
    (exists b, m_feed (ct_machine refuse_third (example_ctower 2)) [1; 2; 3; 4; 5] (ct_init 0 (example_ctower 2)) =
       (b, 2, Some None)) /\
    (exists b, m_finish (ct_machine refuse_third (example_ctower 2)) true (ct_init 0 (example_ctower 2)) = (b, Ok tt) /\
       ct_core (example_ctower 2) b = 100).
Proof.
  do 2 eexists. splits; [apply ref_lawful; lia|apply ref_start| | |].
  - eexists. reflexivity.
  - eexists. reflexivity.
  - eexists. split; reflexivity.
Qed.

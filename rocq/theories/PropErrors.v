(** Property C72: error values tell what went wrong.

    [reports text n] says that the text ends with the decimal numeral of [n] and " items". *)
From Coq Require Import List Arith String Ascii Lia.
From Verif Require Import Prelude Traits PipeSpec PipeProofs BasicModel CodecModel ErrorModel ErrorSpec ErrorProofs PropPipes.
Import ListNotations.
Local Open Scope string_scope.

(** The source of an error of [pipe] is the very error with which the producer or the consumer ended the pipe, and
    different texts tell the two apart. *)
Theorem C72_pipe_error :
  forall (SP SC T F PE CE : Type) (P : producer SP T F PE) (C : consumer SC T F CE)
    (sp sp' : SP) (sc sc' : SC) (fuel : nat) (err : pipe_error PE CE),
  pipe fuel P C sp sc = Ret (sp', sc', Err err) ->
  exists xs,
    (exists e sp1, emits P sp xs sp1 /\ p_produce P sp1 = Ret (sp', Err e) /\
       pipe_error_source err = Some (inl e) /\
       pipe_error_display err = "Failed to pipe a producer into a consumer, because the producer emitted an error") \/
    (exists e sc1, accepts C sc xs sc1 /\
       ((exists x, c_consume C x sc1 = Ret (sc', Err e)) \/ (exists f, c_close C f sc1 = Ret (sc', Err e))) /\
       pipe_error_source err = Some (inr e) /\
       pipe_error_display err = "Failed to pipe a producer into a consumer, because the consumer emitted an error").
Proof.
  intros SP SC T F PE CE P C sp sp' sc sc' fuel err H.
  destruct (proj1 (C12_pipe _ _ _ _ _ _ P C sp sp' sc sc' (Err err)) (ex_intro _ fuel H)) as [xs Hp].
  exists xs. inversion Hp; subst.
  - match goal with H : map_err _ ?r = _ |- _ => destruct r; cbn in H; [discriminate|injection H as <-] end.
    right. eexists _, _. repeat split; eauto.
  - left. eexists _, _. repeat split; eauto.
  - right. eexists _, _. repeat split; eauto.
Qed.
Print Assumptions C72_pipe_error.

(** The error of [consume_full_slice] gives the number of items that were accepted and the consumer's own error. *)
Theorem C72_consume_at_least_error :
  forall (S T F E : Type) (C : consumer S T F E) (buf : list T) (s s' : S) (err : consume_at_least_error E),
  consume_full_slice C buf s = Ret (s', Err err) ->
  exists xs x ys s1 e, buf = (xs ++ x :: ys)%list /\ accepts C s xs s1 /\ c_consume C x s1 = Ret (s', Err e) /\
    reports (cale_display err) (List.length xs) /\ cale_source err = Some e /\ cale_into_reason err = e.
Proof.
  intros S T F E C buf s s' err H. apply C09_consume_full_slice in H.
  destruct H as (xs & x & ys & s1 & Hb & Hn & Ha & Hc). exists xs, x, ys, s1, (cale_reason err).
  repeat split; try assumption. rewrite <- Hn. apply cale_reports.
Qed.
Print Assumptions C72_consume_at_least_error.

(** The error of [overwrite_full_slice] gives the number of items that were produced and why there were no more: the
    final value, then there is no source, or the producer's error, then that is the source; the texts differ. *)
Theorem C72_produce_at_least_error :
  forall (S T F E : Type) (P : producer S T F E) (buf buf' : list T) (s s' : S) (err : produce_at_least_error F E),
  overwrite_full_slice P buf s = Ret (s', (buf', Err err)) ->
  exists xs s1, emits P s xs s1 /\ reports (pale_display err) (List.length xs) /\
    ((exists f, p_produce P s1 = Ret (s', Ok (inr f)) /\ pale_source err = None /\ pale_into_reason err = inl f) \/
     (exists e, p_produce P s1 = Ret (s', Err e) /\ pale_source err = Some e /\ pale_into_reason err = inr e)).
Proof.
  intros S T F E P buf buf' s s' err H. apply C10_overwrite_full_slice in H.
  destruct H as (xs & s1 & _ & Hn & He & _ & Hp). exists xs, s1. split; [exact He|].
  split; [rewrite <- Hn; apply pale_reports|].
  destruct err as [n [f|e]]; cbn in Hp; [left; exists f|right; exists e]; repeat split; assumption.
Qed.
Print Assumptions C72_produce_at_least_error.

(** A text reports at most one number, so the texts of two errors with different counts differ. So do those of an error
    that comes from a final value and one that comes from an error. *)
Theorem C72_texts_differ :
  (forall text n m, reports text n -> reports text m -> n = m) /\
  (forall (E : Type) (a b : consume_at_least_error E), cale_display a = cale_display b -> cale_count a = cale_count b) /\
  (forall (F E : Type) (a b : produce_at_least_error F E), pale_display a = pale_display b ->
     pale_count a = pale_count b /\ (pale_source a = None <-> pale_source b = None)).
Proof.
  split; [exact reports_det|split].
  - intros E a b H. pose proof (cale_reports a) as Ha. rewrite H in Ha. exact (reports_det Ha (cale_reports b)).
  - intros F E a b H. split.
    + pose proof (pale_reports a) as Ha. rewrite H in Ha. exact (reports_det Ha (pale_reports b)).
    + destruct a as [n [f|e]], b as [m [g|e']]; cbn in H |- *; try discriminate H; split; congruence.
Qed.
Print Assumptions C72_texts_differ.

(** What a decoder makes of an error of its producer keeps the source and the final value, and the functions that
    translate the other errors leave both alone. The text of a [DecodeError] ends with that of the value in it, and tells
    which of the three it is. *)
Theorem C72_decode_error :
  forall (F E A B : Type) (show_fin : F -> string) (show_err : E -> string) (show_a : A -> string),
  (forall err : produce_at_least_error F E,
     decode_error_source (@decode_error_from_at_least F E A err) = option_map inl (pale_source err) /\
     (forall f, pale_into_reason err = inl f <-> @decode_error_from_at_least F E A err = UnexpectedEndOfInput f)) /\
  (forall (g : A -> B) (err : decode_error F E A),
     let change o := option_map (fun x => match x with inl e => inl e | inr a => inr (g a) end) o in
     decode_error_source (map_other err g) = change (decode_error_source err) /\
     decode_error_source (map_other_from g err) = change (decode_error_source err) /\
     (forall f, map_other err g = UnexpectedEndOfInput f <-> err = UnexpectedEndOfInput f) /\
     (forall f, map_other_from g err = UnexpectedEndOfInput f <-> err = UnexpectedEndOfInput f)) /\
  (forall err : decode_error F E A, exists before, decode_error_display show_fin show_err show_a err =
     before ++ match err with UnexpectedEndOfInput f => show_fin f | Producer e => show_err e | Other a => show_a a end) /\
  (forall a b : decode_error F E A,
     decode_error_display show_fin show_err show_a a = decode_error_display show_fin show_err show_a b ->
     match a, b with
     | UnexpectedEndOfInput f, UnexpectedEndOfInput f' => show_fin f = show_fin f'
     | Producer e, Producer e' => show_err e = show_err e'
     | Other x, Other y => show_a x = show_a y
     | _, _ => False
     end).
Proof.
  intros F E A B show_fin show_err show_a. split; [|split; [|split]].
  - intros [n [f|e]]; cbn; (split; [reflexivity|]); intros f'; split; congruence.
  - intros g [f|e|a] change; cbn; (split; [reflexivity|split; [reflexivity|split]]); intros f'; split; congruence.
  - intros [f|e|a]; eexists; cbn [decode_error_display]; reflexivity.
  - intros [f|e|a] [f'|e'|a'] H; cbn in H; try discriminate H; now injection H.
Qed.
Print Assumptions C72_decode_error.

(** The source of a [DecodeError] is the error in it, of either kind, and there is none exactly at the end of the input.
    The two kinds of [Blame] have different texts and no source. *)
Theorem C72_sources :
  (forall (F E A : Type) (err : decode_error F E A),
     (forall e, decode_error_source err = Some (inl e) <-> err = Producer e) /\
     (forall a, decode_error_source err = Some (inr a) <-> err = Other a) /\
     (decode_error_source err = None <-> exists f, err = UnexpectedEndOfInput f)) /\
  (forall a b : blame, blame_display a = blame_display b -> a = b) /\
  (forall b : blame, blame_source b = None).
Proof.
  split; [|split].
  - intros F E A [f|e|a]; cbn; (split; [|split]); try (intros x; split; congruence); split; try congruence; eauto.
    + intros [f H]. discriminate.
    + intros [f H]. discriminate.
  - intros [|] [|] H; try reflexivity; discriminate.
  - reflexivity.
Qed.
Print Assumptions C72_sources.

(** Concrete case: a consumer that takes two items, a producer of five, and what the errors say. *)
Example C72_example :
  (exists s err, consume_full_slice (test_consumer 0) [1; 2; 3; 4; 5] (ex_consumer 2) = Ret (s, Err err) /\
     cale_display err = "The consumer failed to consume sufficiently many items, it only consumed 2 items" /\
     cale_source err = Some 99) /\
  (exists s buf err, overwrite_full_slice (@test_producer nat nat nat) (repeat 0 12) (ex_producer (Err 7)) = Ret (s, (buf, Err err)) /\
     pale_display err = "The producer was unable to produce sufficiently many items due to an error, it stopped after producing 5 items" /\
     pale_source err = Some 7 /\ buf = [10; 20; 30; 40; 50; 0; 0; 0; 0; 0; 0; 0]) /\
  (exists s buf err, overwrite_full_slice (@test_producer nat nat nat) (repeat 0 12) (ex_producer (Ok 7)) = Ret (s, (buf, Err err)) /\
     pale_display err = "The producer was unable to produce sufficiently many items due to emitting its final item, it stopped after producing 5 items" /\
     pale_source err = None /\ pale_into_reason err = inl 7) /\
  (exists sp sc err, pipe 10 (@test_producer nat nat nat) (test_consumer 0) (ex_producer (Ok 7)) (ex_consumer 2)
       = Ret (sp, sc, Err err) /\ pipe_error_source err = Some (inr 99)) /\
  (exists sp sc err, pipe 10 (@test_producer nat nat nat) (test_consumer 0) (ex_producer (Err 7)) (ex_consumer 9)
       = Ret (sp, sc, Err err) /\ pipe_error_source err = Some (inl 7)) /\
  display_usize 0 = "0" /\ display_usize 120 = "120" /\
  reports "gave up after 120 items" 120 /\ ~ reports "gave up after 0120 items" 120 /\ ~ reports "gave up after 120" 120 /\
  blame_display TheirFault <> blame_display OurFault.
Proof.
  repeat match goal with |- _ /\ _ => split | |- exists _, _ => eexists end;
    try (vm_compute; reflexivity); try (vm_compute; discriminate).
  - exists "gave up after", "120". split; [reflexivity|]. split; [vm_compute; reflexivity|split; [discriminate|]].
    intros s' H. discriminate.
  - intros (b & s & H & D & _ & Z).
    assert (s = "0120") as ->.
    { change ("gave up after 0120 items") with (("gave up after" ++ String " " "0120") ++ " items") in H.
      change (" " ++ s ++ " items") with (String " " s ++ " items") in H. rewrite <- app_assoc_str in H.
      apply app_cancel_r_str in H. symmetry. apply (@after_last_space _ _ _ _ H).
      - cbn. repeat split; discriminate.
      - exact (@digits_spaceless _ _ _ D). }
    specialize (Z "120" eq_refl). discriminate.
  - intros (b & s & H & _).
    change (" " ++ s ++ " items") with ((" " ++ s) ++ " items") in H. rewrite <- app_assoc_str in H.
    assert (L := f_equal (fun t => String.get (String.length t - 1) t) H). cbn beta in L.
    rewrite length_app_str in L. revert L.
    replace (String.get (String.length (b ++ " " ++ s) + String.length " items" - 1) ((b ++ " " ++ s) ++ " items")) with (Some "s"%char).
    + vm_compute. discriminate.
    + generalize (b ++ " " ++ s). clear. intros t. induction t as [|c t IH]; [reflexivity|].
      replace (String.length (String c t) + String.length " items" - 1) with (Datatypes.S (String.length t + String.length " items" - 1)) by (cbn; lia).
      exact IH.
Qed.

(** Proofs about the codec traits and adaptors, for every lawful codec. *)
From Coq Require Import Bool List Arith ZArith Lia.
From Coq.Init Require Import Byte.
From Verif Require Import Prelude ListFacts Traits Contracts ContractFacts PipeSpec PipeProofs BasicModel BasicSpec BasicProofs CodecModel CodecSpec.
Import ListNotations.
Set Implicit Arguments.

(** ** Consequences of the laws *)
Section Laws.
  Context {V O : Type} (enc : V -> list byte) (dec : list byte -> parse V O)
    (RD : reads_no_further dec) (RT : round_trips enc dec).

  Lemma dec_enc_app : forall v ys, dec (enc v ++ ys) = Parsed v (length (enc v)).
  Proof.
    intros v ys. destruct RD as [H _]. destruct (H _ _ _ (RT v)) as [_ H2]. specialize (H2 ys).
    rewrite firstn_all in H2. exact H2.
  Qed.

  Lemma codec_injective : enc_injective enc.
  Proof. intros v w H. pose proof (RT v) as H1. rewrite H, (RT w) in H1. congruence. Qed.

  Lemma codec_prefix_free : prefix_free enc.
  Proof.
    intros v w ys H. pose proof (dec_enc_app v ys) as H1. rewrite <- H, (RT w) in H1. injection H1 as -> Hl.
    split; auto. rewrite <- (app_nil_r (enc v)) in H at 1. apply app_inv_head in H. auto.
  Qed.

  Lemma dec_prefix_truncated : forall xs v n m, dec xs = Parsed v n -> m < n -> dec (firstn m xs) = Truncated.
  Proof.
    intros xs v n m H Hm. destruct RD as [H1 H2]. destruct (H1 _ _ _ H) as [Hn _].
    assert (Hp : forall j, j <= length (firstn m xs) -> firstn j (firstn m xs) ++ skipn j xs = xs).
    { intros j Hj. rewrite firstn_length in Hj. rewrite firstn_firstn, Nat.min_l by lia. apply firstn_skipn. }
    destruct (dec (firstn m xs)) as [v' j|o j|] eqn:E1; auto; exfalso.
    - destruct (H1 _ _ _ E1) as [Hj H3]. specialize (H3 (skipn j xs)). rewrite Hp, H in H3 by auto.
      injection H3 as _ ->. rewrite firstn_length in Hj. lia.
    - destruct (H2 _ _ _ E1) as [Hj H3]. specialize (H3 (skipn j xs)). rewrite Hp, H in H3 by auto. discriminate.
  Qed.

  Lemma enc_truncated : forall v m, m < length (enc v) -> dec (firstn m (enc v)) = Truncated.
  Proof. intros v m H. eapply dec_prefix_truncated; [apply RT|exact H]. Qed.

  Lemma skipn_enc : forall v ys, skipn (length (enc v)) (enc v ++ ys) = ys.
  Proof. intros v ys. rewrite skipn_app, skipn_all, Nat.sub_diag. reflexivity. Qed.
End Laws.

Lemma canonic_injective : forall V O OC (enc : V -> list byte) (dec : list byte -> parse V O)
    (decc : list byte -> parse V OC),
  canonic enc dec decc ->
  forall xs ys v n m, decc xs = Parsed v n -> decc ys = Parsed v m -> firstn n xs = firstn m ys.
Proof.
  intros V O OC enc dec decc H xs ys v n m Hx Hy. apply H in Hx as [_ <-], Hy as [_ <-]. reflexivity.
Qed.

(** ** The convenience methods *)

Lemma encode_into_vec_ok : forall V (encode : encode_fn V) enc, lawful_encode encode enc ->
  forall v, encode_into_vec encode v = Ret (enc v).
Proof.
  intros V encode enc L v. unfold encode_into_vec.
  specialize (L _ _ _ _ _ _ _ _ (@into_vec_lawful byte x00) v into_vec_new [] 0 [] ltac:(repeat constructor)).
  rewrite collect_feed in L. destruct L as (s' & -> & HR). cbn [bind].
  apply iv_rel_read in HR as [_ ->]. reflexivity.
Qed.

Lemma encode_into_boxed_slice_ok : forall V (encode : encode_fn V) enc len, lawful_encode encode enc ->
  forall v, encode_into_boxed_slice encode len v = Ret (enc v).
Proof. intros V encode enc len L v. exact (encode_into_vec_ok L v). Qed.

(** What decoding from a slice results in. *)
Definition parse_result {V O} (p : parse V O) : res V (decode_error unit infallible O) :=
  match p with
  | Parsed v _ => Ok v
  | Failed o _ => Err (Other o)
  | Truncated => Err (UnexpectedEndOfInput tt)
  end.

Lemma decode_from_slice_ok : forall V O (decode : decode_fn V O) dec, lawful_decode decode dec ->
  forall xs, decode_from_slice decode xs = Ret (parse_result (dec xs)).
Proof.
  intros V O decode dec L xs. unfold decode_from_slice.
  specialize (L _ _ _ _ _ _ (@from_slice_lawful byte) _ _ _ _ (fs_rel_new xs)).
  destruct (dec xs) as [v n|o n|]; destruct L as (s' & -> & _); reflexivity.
Qed.

(** ** Encoder *)

(** Feeding values is feeding the bytes of their encodings. *)
Lemma enc_machine_feed : forall A V F E (enc : V -> list byte) (M : machine A byte F E) vs a,
  exists n, m_feed (enc_machine enc M) vs a =
    match m_feed M (enc_all enc vs) a with (a', _, o) => (a', n, o) end.
Proof.
  induction vs as [|v vs IH]; intros a.
  - exists 0. reflexivity.
  - unfold enc_all in *. cbn [map concat m_feed enc_machine m_step]. rewrite m_feed_app.
    destruct (m_feed M (enc v) a) as [[a1 k] [e|]]; [exists 0; reflexivity|].
    destruct (IH a1) as (n & Hn). exists (Datatypes.S n). cbn in Hn |- *. rewrite Hn.
    destruct (m_feed M (concat (map enc vs)) a1) as [[a2 m] o]. reflexivity.
Qed.

Section EncoderProofs.
  Context {S A F E V : Type} (encode : encode_fn V) (enc : V -> list byte) (LE : lawful_encode encode enc).
  Context (C : bulk_consumer S byte F E) (M : machine A byte F E)
    (R : S -> A -> nat -> list byte -> Prop) (D : S -> A -> Prop) (LC : lawful_consumer C M R D).

  Lemma encoder_consume : forall v s a k w, R s a k w ->
    exists s', c_consume (encoder encode C) v s = Ret (s', snd (m_step (enc_machine enc M) v a)) /\
      match m_step (enc_machine enc M) v a with (a', Ok _) => R s' a' 0 [] | (a', Err _) => D s' a' end.
  Proof.
    intros v s a k w HR. pose proof (LE LC v _ _ _ _ HR) as H. cbn [encoder c_consumer c_consume enc_machine m_step].
    destruct (m_feed M (enc v) a) as [[a' n] [e|]]; exact H.
  Qed.

  Lemma encoder_accepts : forall vs s a k w a' n, R s a k w ->
    m_feed M (enc_all enc vs) a = (a', n, None) ->
    exists s', accepts (encoder encode C) s vs s' /\ R s' a' 0 [].
  Proof.
    induction vs as [|v vs IH]; intros s a k w a' n HR H.
    - injection H as <- <-. exists s. split; [constructor|]. exact (lc_forget (lc_core LC) HR).
    - unfold enc_all in H. cbn [map concat] in H. rewrite m_feed_app in H.
      pose proof (encoder_consume v HR) as H1. cbn [enc_machine m_step] in H1.
      destruct (m_feed M (enc v) a) as [[a1 m] [e|]]; [discriminate|]. destruct H1 as (s1 & E1 & HR1).
      destruct (m_feed M (concat (map enc vs)) a1) as [[a2 m2] o] eqn:E2. injection H as <- <- ->.
      destruct (IH _ _ _ _ _ _ HR1 E2) as (s' & HA & HR'). exists s'. split; auto. econstructor; eauto.
  Qed.

  (** After an error: the values before were accepted, and the bytes before it were written. *)
  Lemma encoder_fails : forall vs s a k w a' n e, R s a k w ->
    m_feed M (enc_all enc vs) a = (a', n, Some e) ->
    exists vs1 v vs2 s1 s', vs = vs1 ++ v :: vs2 /\ accepts (encoder encode C) s vs1 s1 /\
      c_consume (encoder encode C) v s1 = Ret (s', Err e) /\ D s' a' /\
      length (enc_all enc vs1) <= n < length (enc_all enc (vs1 ++ [v])).
  Proof.
    induction vs as [|v vs IH]; intros s a k w a' n e HR H; [discriminate|].
    unfold enc_all in H. cbn [map concat] in H. rewrite m_feed_app in H.
    pose proof (encoder_consume v HR) as H1. cbn [enc_machine m_step] in H1.
    destruct (m_feed M (enc v) a) as [[a1 m] [e1|]] eqn:E0.
    - injection H as <- <- <-. destruct H1 as (s1 & E1 & HD). exists [], v, vs, s, s1. splits; auto.
      + constructor.
      + cbn. lia.
      + destruct (m_feed_count E0) as (_ & _ & H). cbn. rewrite app_nil_r. apply H. discriminate.
    - destruct H1 as (s1 & E1 & HR1).
      destruct (m_feed M (concat (map enc vs)) a1) as [[a2 m2] o] eqn:E2. injection H as <- <- ->.
      destruct (IH _ _ _ _ _ _ _ HR1 E2) as (vs1 & v1 & vs2 & s2 & s' & -> & HA & HC & HD & Hl & Hu).
      exists (v :: vs1), v1, vs2, s2, s'. splits; auto.
      + econstructor; eauto.
      + unfold enc_all in *. cbn [map concat]. rewrite app_length. destruct (m_feed_count E0) as (_ & H & _). rewrite (H eq_refl). lia.
      + unfold enc_all in *. cbn [map concat app]. rewrite app_length. destruct (m_feed_count E0) as (_ & H & _). rewrite (H eq_refl). lia.
  Qed.
End EncoderProofs.

(** ** Decoder *)
Section DecoderProofs.
  Context {S F E V O : Type} (decode : decode_fn V O) (dec : list byte -> parse V O) (LD : lawful_decode decode dec).
  Context (P : bulk_producer S byte F E) (R : S -> list byte -> res F E -> nat -> Prop) (D : S -> Prop)
    (LP : lawful_producer P R D).

  Lemma decoder_produce_end : forall s l k, R s [] l k ->
    exists s', decoder_produce decode P s = Ret (s', report_last (map_err Producer l)) /\ D s'.
  Proof.
    intros s l k HR. unfold decoder_produce. destruct (lp_expose_last (lp_core LP) HR) as (s' & E1 & HD). rewrite E1.
    exists s'. split; auto. destruct l; reflexivity.
  Qed.

  Lemma decoder_produce_item : forall s xs l k, R s xs l k -> xs <> [] ->
    match dec xs with
    | Parsed v n => exists s', decoder_produce decode P s = Ret (s', Ok (inl v)) /\ R s' (skipn n xs) l 0
    | Failed o n => exists s', decoder_produce decode P s = Ret (s', Err (Other o)) /\ R s' (skipn n xs) l 0
    | Truncated => exists s', decoder_produce decode P s = Ret (s', Err (early l)) /\ D s'
    end.
  Proof.
    intros s xs l k HR Hne. unfold decoder_produce.
    destruct (lp_expose (lp_core LP) HR Hne) as (s1 & ys & rest & E1 & _ & _ & HR1). rewrite E1. cbn [bind].
    pose proof (LD LP _ _ _ _ HR1) as H.
    destruct (dec xs) as [v n|o n|]; destruct H as (s' & E2 & H'); exists s'; rewrite E2; split; auto.
  Qed.

  Lemma decoder_decodes : forall xs l vs last, decodes dec xs l vs last ->
    forall s k, R s xs l k ->
    exists s1 s', emits (decoder decode P) s vs s1 /\ p_produce (decoder decode P) s1 = Ret (s', report_last last) /\
      (D s' \/ exists xs' o, last = Err (Other o) /\ R s' xs' l 0).
  Proof.
    induction 1 as [l|xs l v n vs last Hne Hd H IH|xs l o n Hne Hd|xs l Hne Hd]; intros s k HR.
    - destruct (decoder_produce_end HR) as (s' & E1 & HD). exists s, s'. split; [constructor|]. split; [exact E1|]. left; exact HD.
    - pose proof (decoder_produce_item HR Hne) as H1. rewrite Hd in H1. destruct H1 as (s1 & E1 & HR1).
      destruct (IH _ _ HR1) as (s2 & s' & HE & E2 & H2). exists s2, s'. split; [econstructor; eauto|]. split; [exact E2|exact H2].
    - pose proof (decoder_produce_item HR Hne) as H1. rewrite Hd in H1. destruct H1 as (s' & E1 & HR1).
      exists s, s'. split; [constructor|]. split; [exact E1|]. right. eauto.
    - pose proof (decoder_produce_item HR Hne) as H1. rewrite Hd in H1. destruct H1 as (s' & E1 & HR1).
      exists s, s'. split; [constructor|]. split; [destruct l; exact E1|]. left; exact HR1.
  Qed.

  Lemma decoder_slurp_ok : lawful_slurp P R D -> forall s xs l k, R s xs l k ->
    (exists s', p_slurp (decoder decode P) s = Ret (s', Ok tt) /\ R s' xs l k) \/
    (exists s' e, p_slurp (decoder decode P) s = Ret (s', Err (Producer e)) /\ xs = [] /\ l = Err e /\ D s').
  Proof.
    intros LS s xs l k HR. cbn [decoder p_slurp]. unfold decoder_slurp.
    destruct (LS _ _ _ _ HR) as [(s' & -> & HR')|(s' & e & -> & H1 & H2 & H3)]; [left|right]; cbn; eauto.
    exists s', e. auto.
  Qed.
End DecoderProofs.

(** The items before the last value, and the last value, are determined. *)
Lemma emits_last_det : forall S T F E (P : producer S T F E) s xs s1 s1' (last : res F E) ys s2 s2' (last' : res F E),
  emits P s xs s1 -> p_produce P s1 = Ret (s1', report_last last) ->
  emits P s ys s2 -> p_produce P s2 = Ret (s2', report_last last') -> xs = ys /\ last' = last.
Proof.
  intros S T F E P s xs s1 s1' last ys s2 s2' last' H1 E1 H2 E2. revert ys H2.
  induction H1 as [s|s x s0 xs s1 Hp H IH]; intros ys H2; inversion H2; subst.
  - split; auto. rewrite E1 in E2. injection E2 as _ E2. destruct last, last'; cbn in E2; congruence.
  - exfalso. rewrite E1 in *. destruct last; discriminate.
  - exfalso. rewrite E2 in *. destruct last'; discriminate.
  - match goal with X : p_produce P s = Ret (_, Ok (inl _)) |- _ => rewrite Hp in X; injection X as <- <- end.
    match goal with X : emits P s0 _ _ |- _ => destruct (IH E1 _ X) as [-> ->] end. auto.
Qed.

Lemma decodes_det : forall V O F E (dec : list byte -> parse V O) xs (l : res F E) vs last,
  decodes dec xs l vs last -> forall vs' last', decodes dec xs l vs' last' -> vs = vs' /\ last = last'.
Proof.
  induction 1 as [l|xs l v n vs last Hne Hd H IH|xs l o n Hne Hd|xs l Hne Hd]; intros vs' last' H'; inversion H'; subst;
    try congruence; auto.
  - rewrite Hd in *. match goal with H : Parsed _ _ = Parsed _ _ |- _ => injection H as <- <- end.
    edestruct IH as [-> ->]; eauto.
  - rewrite Hd in *. match goal with H : Failed _ _ = Failed _ _ |- _ => injection H as <- <- end. auto.
Qed.

(** If no value has an empty encoding, every byte string decodes into something. *)
Lemma decodes_total : forall V O F E (dec : list byte -> parse V O) (l : res F E),
  reads_no_further dec ->
  (forall xs v n, dec xs = Parsed v n -> 1 <= n) ->
  forall xs, exists vs last, decodes dec xs l vs last.
Proof.
  intros V O F E dec l RD Hpos xs. remember (length xs) as m eqn:Hm. revert xs Hm.
  induction m as [m IH] using lt_wf_ind. intros xs Hm.
  destruct xs as [|x0 xs0]; [do 2 eexists; constructor|]. remember (x0 :: xs0) as xs eqn:Hxs.
  assert (Hne : xs <> []) by (subst xs; discriminate).
  destruct (dec xs) as [v n|o n|] eqn:E1.
  - destruct RD as [RD _]. destruct (RD _ _ _ E1) as [Hn _]. pose proof (Hpos _ _ _ E1).
    destruct (IH (length (skipn n xs))) with (xs := skipn n xs) as (vs & last & H'); auto.
    { rewrite skipn_length. lia. }
    exists (v :: vs), last. eapply decodes_item; eauto.
  - do 2 eexists. eapply decodes_invalid; eauto.
  - do 2 eexists. eapply decodes_truncated; eauto.
Qed.

Section Sequences.
  Context {V O F E : Type} (enc : V -> list byte) (dec : list byte -> parse V O)
    (RD : reads_no_further dec) (RT : round_trips enc dec) (NE : forall v, enc v <> []).

  Lemma decodes_enc_all : forall vs ys (l : res F E) us last,
    decodes dec ys l us last -> decodes dec (enc_all enc vs ++ ys) l (vs ++ us) last.
  Proof.
    induction vs as [|v vs IH]; intros ys l us last H; [exact H|].
    unfold enc_all in *. cbn [map concat]. rewrite <- app_assoc. apply decodes_item with (n := length (enc v)).
    - destruct (enc v) eqn:E1; [now apply NE in E1|discriminate].
    - apply (dec_enc_app RD RT).
    - rewrite skipn_enc. apply IH. exact H.
  Qed.

  Lemma decodes_all : forall vs (l : res F E), decodes dec (enc_all enc vs) l vs (map_err Producer l).
  Proof.
    intros vs l. pose proof (decodes_enc_all vs (decodes_end dec l)) as H. rewrite !app_nil_r in H. exact H.
  Qed.

  Lemma decodes_truncation : forall vs v m (l : res F E), 0 < m < length (enc v) ->
    decodes dec (enc_all enc vs ++ firstn m (enc v)) l vs (Err (early l)).
  Proof.
    intros vs v m l Hm. replace vs with (vs ++ []) at 2 by apply app_nil_r. apply decodes_enc_all. apply decodes_truncated.
    - intros H. apply (f_equal (@length _)) in H. rewrite firstn_length in H. cbn in H. lia.
    - apply (enc_truncated RD RT). lia.
  Qed.
End Sequences.

Section Boundaries.
  Context {V O F E : Type} (dec : list byte -> parse V O) (RD : reads_no_further dec).

  Lemma splits_decodes : forall xs vs (l : res F E), splits_into dec xs vs ->
    forall ys us last, decodes dec ys l us last -> decodes dec (xs ++ ys) l (vs ++ us) last.
  Proof.
    intros xs vs l (pieces & -> & HF) ys us last HD. induction HF as [|p v pieces vs [Hne Hp] HF IH]; [exact HD|].
    cbn [concat app]. rewrite <- app_assoc. apply decodes_item with (n := length p).
    - destruct p; [congruence|discriminate].
    - destruct RD as [H _]. destruct (H _ _ _ Hp) as [_ H1]. rewrite firstn_all in H1. apply H1.
    - rewrite skipn_app, skipn_all, Nat.sub_diag. exact IH.
  Qed.

  (** How a byte string is taken apart. *)
  Lemma decodes_splits : (forall xs v n, dec xs = Parsed v n -> 1 <= n) ->
    forall xs (l : res F E) vs last, decodes dec xs l vs last ->
    exists ys zs, xs = ys ++ zs /\ splits_into dec ys vs /\ decodes dec zs l [] last.
  Proof.
    intros Hpos. induction 1 as [l|xs l v n vs last Hne Hd H IH|xs l o n Hne Hd|xs l Hne Hd].
    - exists [], []. split; auto. split; [exists []; split; constructor|constructor].
    - destruct IH as (ys & zs & E1 & (pieces & -> & HF) & HD). destruct RD as [H1 _]. destruct (H1 _ _ _ Hd) as [Hn H2].
      exists (firstn n xs ++ concat pieces), zs. split; [rewrite <- app_assoc, <- E1; symmetry; apply firstn_skipn|].
      split; [|exact HD]. exists (firstn n xs :: pieces). split; [reflexivity|]. constructor; [|exact HF].
      assert (Hf : length (firstn n xs) = n) by (rewrite firstn_length; lia).
      pose proof (Hpos _ _ _ Hd) as Hp. split.
      + intros E2. rewrite E2 in Hf. cbn in Hf. lia.
      + specialize (H2 []). rewrite app_nil_r in H2. rewrite H2, Hf. reflexivity.
    - exists [], xs. split; auto. split; [exists []; split; constructor|]. eapply decodes_invalid; eauto.
    - exists [], xs. split; auto. split; [exists []; split; constructor|]. now apply decodes_truncated.
  Qed.
End Boundaries.

(** ** Relative adaptors *)
Section RelativeProofs.
  Context {S A F E V RT : Type} (encode : RT -> encode_fn V) (enc : RT -> V -> list byte)
    (LE : forall r, lawful_encode (encode r) (enc r)).
  Context (C : bulk_consumer S byte F E) (M : machine A byte F E)
    (R : S -> A -> nat -> list byte -> Prop) (D : S -> A -> Prop) (LC : lawful_consumer C M R D).

  Lemma drive_encoder_ok : forall evs s r a k w, R s a k w ->
    match m_feed M (concat (map (fun p => enc (fst p) (snd p)) (with_references r evs))) a with
    | (a', _, None) => exists s', drive_encoder (relative_encoder encode C) evs (mk_relative s r) =
          Ret (mk_relative s' (last_reference r evs), Ok tt) /\ R s' a' 0 []
    | (a', _, Some e) => exists s' r', drive_encoder (relative_encoder encode C) evs (mk_relative s r) =
          Ret (mk_relative s' r', Err e) /\ D s' a'
    end.
  Proof.
    induction evs as [|[v|r'] evs IH]; intros s r a k w HR; cbn [with_references map concat drive_encoder].
    - cbn [m_feed]. exists s. split; auto. exact (lc_forget (lc_core LC) HR).
    - rewrite m_feed_app. cbn [fst snd]. pose proof (LE r LC v _ _ _ _ HR) as H.
      cbn [relative_encoder c_consumer c_consume relative_to rel_inner].
      destruct (m_feed M (enc r v) a) as [[a1 n] [e|]].
      + destruct H as (s' & E1 & HD). exists s', r. rewrite E1. auto.
      + destruct H as (s' & E1 & HR1). rewrite E1. cbn [bind on_inner relative_to].
        pose proof (IH _ r _ _ _ HR1) as H. destruct (m_feed M _ a1) as [[a2 m] [e|]]; exact H.
    - cbn [set_relative_to rel_inner]. exact (IH _ r' _ _ _ HR).
  Qed.
End RelativeProofs.

Section RelativeDecoderProofs.
  Context {S F E V O RT : Type} (decode : RT -> decode_fn V O) (dec : RT -> list byte -> parse V O)
    (LD : forall r, lawful_decode (decode r) (dec r)).
  Context (P : bulk_producer S byte F E) (R : S -> list byte -> res F E -> nat -> Prop) (D : S -> Prop)
    (LP : lawful_producer P R D).

  Lemma drive_decoder_ok : forall X (evs : list (rel_event RT X)) s r xs l k, R s xs l k ->
    match rel_decodes dec r evs xs l with
    | (rest, vs, last) => exists s' r', drive_decoder (relative_decoder decode P) evs (mk_relative s r) =
          Ret (mk_relative s' r', (vs, last)) /\
        match last with
        | None => r' = last_reference r evs /\ exists k', R s' rest l k'
        | Some (Err (Other _)) => R s' rest l 0
        | Some _ => D s'
        end
    end.
  Proof.
    intros X. induction evs as [|[v|r'] evs IH]; intros s r xs l k HR; cbn [rel_decodes drive_decoder].
    - exists s, r. splits; auto. eauto.
    - change (p_produce (relative_decoder decode P) (mk_relative s r))
        with (on_inner (decoder_produce (decode r) P s) (mk_relative s r)).
      destruct xs as [|x0 xs0].
      + destruct (decoder_produce_end (decode r) LP _ _ _ HR) as (s' & E1 & HD). exists s', r. rewrite E1.
        cbn [on_inner bind relative_to]. destruct l; split; auto.
      + pose proof (decoder_produce_item (LD r) LP _ _ _ HR (not_eq_sym (@nil_cons _ x0 xs0))) as H.
        destruct (dec r (x0 :: xs0)) as [u n|o n|].
        * destruct H as (s' & E1 & HR1). rewrite E1. cbn [on_inner bind relative_to].
          pose proof (IH _ r _ _ _ HR1) as H. destruct (rel_decodes dec r evs (skipn n (x0 :: xs0)) l) as [[rest vs] last].
          destruct H as (s2 & r2 & E2 & H). rewrite E2. exists s2, r2. split; auto.
        * destruct H as (s' & E1 & HR1). rewrite E1. cbn [on_inner bind relative_to]. exists s', r. auto.
        * destruct H as (s' & E1 & HD). rewrite E1. cbn [on_inner bind relative_to]. exists s', r.
          split; auto. destruct l; exact HD.
    - cbn [set_relative_to rel_inner]. exact (IH _ r' _ _ _ HR).
  Qed.
End RelativeDecoderProofs.

Lemma rel_decodes_enc : forall V O RT F E (enc : RT -> V -> list byte) (dec : RT -> list byte -> parse V O),
  (forall r, reads_no_further (dec r)) -> (forall r, round_trips (enc r) (dec r)) -> (forall r v, enc r v <> []) ->
  forall (evs : list (rel_event RT V)) r ys (l : res F E),
  rel_decodes dec r evs (concat (map (fun p => enc (fst p) (snd p)) (with_references r evs)) ++ ys) l =
  (ys, map snd (with_references r evs), None).
Proof.
  intros V O RT F E enc dec RD RTT NE. induction evs as [|[v|r'] evs IH]; intros r ys l; cbn [with_references map concat rel_decodes]; auto.
  rewrite <- app_assoc. cbn [fst snd].
  destruct (enc r v ++ concat (map (fun p => enc (fst p) (snd p)) (with_references r evs)) ++ ys) eqn:E1.
  - exfalso. apply app_eq_nil in E1 as [E1 _]. exact (NE _ _ E1).
  - rewrite <- E1. rewrite (dec_enc_app (RD r) (RTT r)), skipn_enc, IH. reflexivity.
Qed.

(** ** Encoding into a [TestConsumer] *)

Lemma test_feed : forall T F E (e : E) xs (log : list T) (fin : option F) n,
  m_feed (failing_machine T F e) xs (mk_tstate log fin n false) =
  if length xs <=? n then (mk_tstate (log ++ xs) fin (n - length xs) false, length xs, None)
  else (mk_tstate (log ++ firstn n xs) fin 0 true, n, Some e).
Proof.
  induction xs as [|x xs IH]; intros log fin n; cbn [m_feed length].
  - rewrite app_nil_r, Nat.sub_0_r. reflexivity.
  - destruct n as [|n]; cbn [failing_machine m_step t_left t_log t_fin t_failed t_fail firstn].
    + rewrite app_nil_r. reflexivity.
    + rewrite IH. change (S (length xs) <=? S n) with (length xs <=? n). rewrite <- !app_assoc. destruct (length xs <=? n); reflexivity.
Qed.

Lemma encode_into_test_consumer : forall V (encode : encode_fn V) enc, lawful_encode encode enc ->
  forall F E (error : E) n sizes pattern v,
  (match sizes with Some l => Forall (fun m => 1 <= m) l | None => True end) ->
  exists s' : test_consumer_state byte F E,
    encode _ _ _ (test_consumer x00) v (test_consumer_build error n sizes pattern) =
      Ret (s', if length (enc v) <=? n then Ok tt else Err error) /\
    test_consumer_consumed s' = Ret (firstn n (enc v)).
Proof.
  intros V encode enc L F E error n sizes pattern v Hs.
  pose proof (@tc_rel_build byte F E error n sizes pattern Hs) as HB.
  pose proof (L _ _ _ _ _ _ _ _ (@test_consumer_lawful byte F E x00 error) v _ _ _ _ HB) as H.
  rewrite test_feed in H. destruct (Nat.leb_spec (length (enc v)) n) as [Hl|Hl]; destruct H as (s' & E1 & HR); exists s'.
  - split; auto. rewrite (firstn_all2 (n := n)) by lia.
    exact (proj1 (@tc_accessors byte F E error s' (CActive _ _ _) HR)).
  - split; auto. exact (proj1 (@tc_accessors byte F E error s' (CEnded _) HR)).
Qed.

(** A contract-abiding bulk consumer built from an arbitrary machine. It offers [size] slots at a
    time and only finds out whether items are acceptable when they are consumed. It is not taken
    from the code; it serves as a witness. *)
From Coq Require Import Bool List Arith Lia.
From Verif Require Import Prelude ListFacts Traits Contracts ContractFacts BasicModel.
Import ListNotations.
Set Implicit Arguments.

Section Reference.
  Context {A T F E : Type} (M : machine A T F E) (size : nat).

  (** The machine state, and the contents of the slots. *)
  Definition ref_state : Type := (A * list T)%type.

  Definition ref_consume (x : T) (s : ref_state) : outcome (ref_state * res unit E) :=
    Ret (fst (m_step M x (fst s)), [], snd (m_step M x (fst s))).
  Definition ref_close (f : F) (s : ref_state) : outcome (ref_state * res unit E) :=
    Ret (fst (m_finish M f (fst s)), [], snd (m_finish M f (fst s))).
  Definition ref_flush (s : ref_state) : outcome (ref_state * res unit E) :=
    Ret (fst (m_flush M (fst s)), snd s, snd (m_flush M (fst s))).
  Definition ref_expose (s : ref_state) : outcome (ref_state * res nat E) := Ret (s, Ok size).
  Definition ref_write (ys : list T) (s : ref_state) : ref_state := (fst s, overlay ys (snd s)).
  Definition ref_consume_slots (n : nat) (s : ref_state) : outcome (ref_state * res unit E) :=
    match m_feed M (firstn n (snd s)) (fst s) with
    | (a, _, None) => Ret (a, skipn n (snd s), Ok tt)
    | (a, _, Some e) => Ret (a, skipn n (snd s), Err e)
    end.

  Definition ref_consumer : bulk_consumer ref_state T F E :=
    bulk_consumer_of ref_consume ref_close ref_flush ref_expose ref_write ref_consume_slots.

  Definition ref_rel (s : ref_state) (a : A) (k : nat) (w : list T) : Prop :=
    fst s = a /\ length w <= k /\ firstn (length w) (snd s) = w.
  Definition ref_end (s : ref_state) (a : A) : Prop := fst s = a.

  Lemma ref_lawful : 1 <= size -> lawful_consumer ref_consumer M ref_rel ref_end.
  Proof.
    intros Hs. apply default_lawful_consumer; [|reflexivity]. constructor; unfold ref_rel, ref_end.
    - tauto.
    - intros [b v] a k w (H1 & H2 & H3). cbn. cbn in H1. splits; auto; lia.
    - intros [b v] a k w x (H1 & H2 & H3). cbn in *. subst b. eexists; split; [reflexivity|].
      cbn. destruct (m_step M x a) as [a' [[]|e]]; cbn; auto.
    - intros [b v] a k w f (H1 & H2 & H3). cbn in *. subst b. eexists; split; reflexivity.
    - intros [b v] a k w (H1 & H2 & H3). cbn in *. subst b. eexists; split; [reflexivity|].
      cbn. destruct (m_flush M a) as [a' [[]|e]]; cbn; auto.
    - intros [b v] a k w (H1 & H2 & H3). left. cbn in *. do 2 eexists; split; [reflexivity|]. cbn. splits; auto. lia.
    - intros [b v] a k w ys (H1 & H2 & H3) Hy. cbn in *. rewrite length_overlay_max. splits; auto; [lia|].
      unfold overlay. rewrite firstn_app, firstn_le_all by lia. f_equal.
      rewrite <- H3 at 2. rewrite skipn_firstn_comm. f_equal. lia.
    - intros [b v] a k w n (H1 & H2 & H3) Hk Hn. cbn in *. subst b. unfold ref_consume_slots. cbn [fst snd].
      assert (Hv : firstn n v = firstn n w) by (rewrite <- H3, firstn_firstn; f_equal; lia).
      rewrite Hv. destruct (m_feed M (firstn n w) a) as [[a' m] [e|]]; eexists; (split; [reflexivity|]); cbn; auto.
      rewrite skipn_length. splits; auto; [lia|]. rewrite <- H3 at 2. now rewrite skipn_firstn_comm.
  Qed.

  Lemma ref_start : forall a, ref_rel (a, []) a 0 [].
  Proof. intros a. unfold ref_rel; cbn. auto. Qed.
End Reference.

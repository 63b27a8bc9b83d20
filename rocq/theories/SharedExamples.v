(** Codecs whose encoding and decoding can be interrupted after every byte, to instantiate the theorems about shared
    producers and consumers with. These are not part of the modelled code. *)
From Coq Require Import Bool List Arith.
From Coq.Init Require Import Byte.
From Coq.Strings Require Byte.
From Verif Require Import Prelude ListFacts Traits Contracts ContractFacts BasicModel CodecModel CodecSpec CodecExamples
  SharedModel SharedSpec SharedProofs.
Import ListNotations.
Set Implicit Arguments.

(** Encoding byte by byte. *)
Fixpoint consume_each {S F E} (C : bulk_consumer S byte F E) (xs : list byte) (s : S) : outcome (S * res unit E) :=
  match xs with
  | [] => Ret (s, Ok tt)
  | x :: xs =>
      let* (s, r) := c_consume C x s in
      match r with
      | Ok _ => consume_each C xs s
      | Err e => Ret (s, Err e)
      end
  end.
Definition bytewise_encode {V} (enc : V -> list byte) : encode_fn V := fun S F E C v s => consume_each C (enc v) s.

Fixpoint consume_each_prog {S F E} (C : bulk_consumer S byte F E) (xs : list byte) : prog S (res unit E) :=
  match xs with
  | [] => Done (Ok tt)
  | x :: xs =>
      prog_bind (prog_call (c_consume C x)) (fun r =>
        match r with
        | Ok _ => consume_each_prog C xs
        | Err e => Done (Err e)
        end)
  end.

Lemma consume_each_implements : forall S F E (C : bulk_consumer S byte F E) xs,
  implements (consume_each_prog C xs) (consume_each C xs).
Proof.
  unfold implements. induction xs as [|x xs IH]; intros s; cbn [consume_each_prog consume_each]; [reflexivity|].
  rewrite run_bind, run_call. destruct (c_consume C x s) as [[s' [u|e]]| |]; cbn; auto.
Qed.

Lemma bytewise_lawful : forall V (enc : V -> list byte), lawful_encode (bytewise_encode enc) enc.
Proof.
  intros V enc S A F E C M R D L v s a k w HR. apply (lc_forget (lc_core L)) in HR. unfold bytewise_encode. clear k w. revert s a HR.
  induction (enc v) as [|x xs IH]; intros s a HR; cbn [m_feed consume_each]; [eauto|].
  destruct (lc_consume (lc_core L) x HR) as (s1 & E1 & H). rewrite E1. destruct (m_step M x a) as [a1 [u|e]]; cbn [bind snd] in *.
  - specialize (IH _ _ H). destruct (m_feed M xs a1) as [[a2 n] [e|]]; exact IH.
  - eauto.
Qed.

(** A byte relative to another byte: [00] if they are equal, otherwise [01] and the byte. *)
Definition diff_enc (r v : byte) : list byte := if Byte.eqb v r then [x00] else [x01; v].

(** Decoding optional bytes one byte after the other. *)
Definition opt_decode_prog {S F E} (P : bulk_producer S byte F E) : prog S (res (option byte) (decode_error F E byte)) :=
  prog_bind (prog_call (p_produce P)) (fun r =>
    match r with
    | Err e => Done (Err (Producer e))
    | Ok (inr f) => Done (Err (UnexpectedEndOfInput f))
    | Ok (inl x00) => Done (Ok None)
    | Ok (inl x01) =>
        prog_bind (prog_call (p_produce P)) (fun r =>
          match r with
          | Err e => Done (Err (Producer e))
          | Ok (inr f) => Done (Err (UnexpectedEndOfInput f))
          | Ok (inl b) => Done (Ok (Some b))
          end)
    | Ok (inl t) => Done (Err (Other t))
    end).

Lemma opt_decode_implements : forall S F E (P : bulk_producer S byte F E),
  implements (opt_decode_prog P) (fun s => opt_decode P s).
Proof.
  unfold implements. intros S F E P s. unfold opt_decode_prog, opt_decode. rewrite run_bind, run_call.
  destruct (p_produce P s) as [[s1 [[t|f]|e]]| |]; cbn [bind run_prog]; auto.
  destruct t; cbn [run_prog]; try reflexivity. rewrite run_bind, run_call.
  destruct (p_produce P s1) as [[s2 [[b|f]|e]]| |]; reflexivity.
Qed.

Lemma call_implements : forall S X (f : S -> outcome (S * X)), implements (prog_call f) f.
Proof. intros S X f s. apply run_call. Qed.

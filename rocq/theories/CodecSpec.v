(** The documented contracts of the codec traits, and list-level descriptions of what the codec
    adaptors are supposed to do. Nothing here mentions an implementation. *)
From Coq Require Import Bool List Arith ZArith.
From Coq.Init Require Import Byte.
From Verif Require Import Prelude Traits Contracts CodecModel.
Import ListNotations.
Set Implicit Arguments.

(** ** Encodings and decodings of byte strings *)

(** The result of decoding the start of a byte string: a value and the number of bytes of its
    encoding; or the string is invalid, which is noticed after [n] bytes; or it ends too early. *)
Inductive parse (V O : Type) : Type :=
| Parsed (v : V) (n : nat)
| Failed (o : O) (n : nat)
| Truncated.
Arguments Parsed {V O} v n.
Arguments Failed {V O} o n.
Arguments Truncated {V O}.

(** "[decode] must not read any bytes beyond the end of the encoding", "the result must depend only
    on the decoded bytes" (decode.rs 15-17): bytes after the first [n] do not matter, and are not asked for. *)
Definition reads_no_further {V O} (dec : list byte -> parse V O) : Prop :=
  (forall xs v n, dec xs = Parsed v n ->
     n <= length xs /\ forall ys, dec (firstn n xs ++ ys) = Parsed v n) /\
  (forall xs o n, dec xs = Failed o n ->
     n <= length xs /\ forall ys, dec (firstn n xs ++ ys) = Failed o n).

(** "encoding a value and then decoding it must yield a value equal to the original" (encode.rs 22). *)
Definition round_trips {V O} (enc : V -> list byte) (dec : list byte -> parse V O) : Prop :=
  forall v, dec (enc v) = Parsed v (length (enc v)).

(** "Nonequal values must result in nonequal encodings", "No encoding must be a prefix of a
    different encoding" (encode.rs 20-21). *)
Definition enc_injective {V} (enc : V -> list byte) : Prop := forall v w, enc v = enc w -> v = w.
Definition prefix_free {V} (enc : V -> list byte) : Prop :=
  forall v w ys, enc w = enc v ++ ys -> ys = [] /\ v = w.

(** decode.rs 46-48: decoding canonically is injective, agrees with decoding, and reencoding gives back
    the bytes. *)
Definition canonic {V O OC} (enc : V -> list byte) (dec : list byte -> parse V O)
    (decc : list byte -> parse V OC) : Prop :=
  forall xs v n, decc xs = Parsed v n -> dec xs = Parsed v n /\ enc v = firstn n xs.

(** ** What it means for the trait methods to implement them *)

(** How a decoder reports that the input stopped too early. *)
Definition early {F E O} (last : res F E) : decode_error F E O :=
  match last with Ok f => UnexpectedEndOfInput f | Err e => Producer e end.

(** [encode] writes [enc v] into every contract-abiding consumer, up to the first byte it refuses. *)
Definition lawful_encode {V} (encode : encode_fn V) (enc : V -> list byte) : Prop :=
  forall (S A F E : Type) (C : bulk_consumer S byte F E) (M : machine A byte F E)
    (R : S -> A -> nat -> list byte -> Prop) (D : S -> A -> Prop),
  lawful_consumer C M R D ->
  forall (v : V) (s : S) (a : A) (k : nat) (w : list byte), R s a k w ->
  match m_feed M (enc v) a with
  | (a', _, None) => exists s', encode _ _ _ C v s = Ret (s', Ok tt) /\ R s' a' 0 []
  | (a', _, Some e) => exists s', encode _ _ _ C v s = Ret (s', Err e) /\ D s' a'
  end.

(** [decode] applies [dec] to the bytes of every contract-abiding producer, and leaves the
    bytes after the encoding. *)
Definition lawful_decode {V O} (decode : decode_fn V O) (dec : list byte -> parse V O) : Prop :=
  forall (S F E : Type) (P : bulk_producer S byte F E)
    (R : S -> list byte -> res F E -> nat -> Prop) (D : S -> Prop),
  lawful_producer P R D ->
  forall (s : S) (xs : list byte) (l : res F E) (k : nat), R s xs l k ->
  match dec xs with
  | Parsed v n => exists s', decode _ _ _ P s = Ret (s', Ok v) /\ R s' (skipn n xs) l 0
  | Failed o n => exists s', decode _ _ _ P s = Ret (s', Err (Other o)) /\ R s' (skipn n xs) l 0
  | Truncated => exists s', decode _ _ _ P s = Ret (s', Err (early l)) /\ D s'
  end.

(** A lawful codec: everything the documentation of [Encodable] and [Decodable] asks for. *)
Record lawful_codec {V O} (encode : encode_fn V) (decode : decode_fn V O)
    (enc : V -> list byte) (dec : list byte -> parse V O) : Prop := {
  codec_encode : lawful_encode encode enc;
  codec_decode : lawful_decode decode dec;
  codec_reads : reads_no_further dec;
  codec_round_trips : round_trips enc dec
}.
Arguments codec_encode {V O encode decode enc dec} _.
Arguments codec_decode {V O encode decode enc dec} _.
Arguments codec_reads {V O encode decode enc dec} _.
Arguments codec_round_trips {V O encode decode enc dec} _.

(** The contract of [DecodableCanonic] on top. *)
Record lawful_canonic {V O OC} (decode_canonic : decode_fn V OC) (enc : V -> list byte)
    (dec : list byte -> parse V O) (decc : list byte -> parse V OC) : Prop := {
  canonic_decode : lawful_decode decode_canonic decc;
  canonic_reads : reads_no_further decc;
  canonic_agrees : canonic enc dec decc
}.
Arguments canonic_decode {V O OC decode_canonic enc dec decc} _.
Arguments canonic_reads {V O OC decode_canonic enc dec decc} _.
Arguments canonic_agrees {V O OC decode_canonic enc dec decc} _.

(** ** Sequences of encodings *)

(** The bytes of a sequence of values. *)
Definition enc_all {V} (enc : V -> list byte) (vs : list V) : list byte := concat (map enc vs).

(** [decodes dec xs l vs last]: the bytes [xs], after which the last value is [l], are the encodings of [vs],
    after which [last] is to be reported: the final value of the bytes if it comes at the end
    of an encoding, an error otherwise. *)
Inductive decodes {V O F E} (dec : list byte -> parse V O)
  : list byte -> res F E -> list V -> res F (decode_error F E O) -> Prop :=
| decodes_end : forall l, decodes dec [] l [] (map_err Producer l)
| decodes_item : forall xs l v n vs last, xs <> [] -> dec xs = Parsed v n ->
    decodes dec (skipn n xs) l vs last -> decodes dec xs l (v :: vs) last
| decodes_invalid : forall xs l o n, xs <> [] -> dec xs = Failed o n -> decodes dec xs l [] (Err (Other o))
| decodes_truncated : forall xs l, xs <> [] -> dec xs = Truncated -> decodes dec xs l [] (Err (early l)).

(** [splits_into dec xs vs]: the bytes [xs] are encodings of [vs], one after the other, without a rest. *)
Definition splits_into {V O} (dec : list byte -> parse V O) (xs : list byte) (vs : list V) : Prop :=
  exists pieces, xs = concat pieces /\ Forall2 (fun p v => p <> [] /\ dec p = Parsed v (length p)) pieces vs.

(** The machine that results from feeding encodings into a machine for bytes. *)
Definition enc_machine {A V F E} (enc : V -> list byte) (M : machine A byte F E) : machine A V F E :=
  {| m_step := fun v a => match m_feed M (enc v) a with
                          | (a', _, None) => (a', Ok tt)
                          | (a', _, Some e) => (a', Err e)
                          end;
     m_finish := m_finish M;
     m_flush := m_flush M |}.

(** ** Relative codecs *)

(** What a client does with a relative encoder or decoder: pass an item, or change the reference value. *)
Inductive rel_event (RT V : Type) : Type :=
| RelItem (v : V)
| RelSet (r : RT).
Arguments RelItem {RT V} v.
Arguments RelSet {RT V} r.

(** The values among the events, each with the reference value set most recently. *)
Fixpoint with_references {RT V} (r : RT) (evs : list (rel_event RT V)) : list (RT * V) :=
  match evs with
  | [] => []
  | RelItem v :: evs => (r, v) :: with_references r evs
  | RelSet r :: evs => with_references r evs
  end.
Definition last_reference {RT V} (r : RT) (evs : list (rel_event RT V)) : RT :=
  fold_left (fun r ev => match ev with RelItem _ => r | RelSet r' => r' end) evs r.

(** Passing items to an encoder and changing its reference value; stops at the first error. *)
Fixpoint drive_encoder {S RT V F E} (C : consumer (relative S RT) V F E) (evs : list (rel_event RT V))
    (s : relative S RT) : outcome (relative S RT * res unit E) :=
  match evs with
  | [] => Ret (s, Ok tt)
  | RelSet r :: evs => drive_encoder C evs (set_relative_to r s)
  | RelItem v :: evs =>
      let* (s, r) := c_consume C v s in
      match r with
      | Err e => Ret (s, Err e)
      | Ok tt => drive_encoder C evs s
      end
  end.

(** Taking items from a decoder and changing its reference value; stops at the last value or error.
    The payload of [RelItem] events is ignored. *)
Fixpoint drive_decoder {S RT X V F E} (P : producer (relative S RT) V F E) (evs : list (rel_event RT X))
    (s : relative S RT) : outcome (relative S RT * (list V * option (res F E))) :=
  match evs with
  | [] => Ret (s, ([], None))
  | RelSet r :: evs => drive_decoder P evs (set_relative_to r s)
  | RelItem _ :: evs =>
      let* (s, r) := p_produce P s in
      match r with
      | Err e => Ret (s, ([], Some (Err e)))
      | Ok (inr f) => Ret (s, ([], Some (Ok f)))
      | Ok (inl v) =>
          let* (s, (vs, last)) := drive_decoder P evs s in
          Ret (s, (v :: vs, last))
      end
  end.

(** Decoding [xs] with the reference values of the events. *)
Fixpoint rel_decodes {RT X V O F E} (dec : RT -> list byte -> parse V O) (r : RT) (evs : list (rel_event RT X))
    (xs : list byte) (l : res F E) : list byte * list V * option (res F (decode_error F E O)) :=
  match evs with
  | [] => (xs, [], None)
  | RelSet r :: evs => rel_decodes dec r evs xs l
  | RelItem _ :: evs =>
      match xs with
      | [] => ([], [], Some (map_err Producer l))
      | _ :: _ =>
          match dec r xs with
          | Parsed v n =>
              match rel_decodes dec r evs (skipn n xs) l with (rest, vs, last) => (rest, v :: vs, last) end
          | Failed o n => (skipn n xs, [], Some (Err (Other o)))
          | Truncated => ([], [], Some (Err (early l)))
          end
      end
  end.

(** The adaptors that share a producer or consumer behind a mutex (ufotofu_codec/src/adaptors/shared_*.rs), with the futures of
    asynchronous objects and codecs where [SharedModel] has programs that can be interrupted anywhere. *)
From Coq Require Import Bool List Arith.
From Coq.Init Require Import Byte.
From Verif Require Import Prelude Traits AdaptorSpec CodecModel SharedModel AsyncModel AsyncAdaptorModel.
Import ListNotations.
Set Implicit Arguments.

(** The future that a call works on while it has the lock: each poll is a step. *)
Fixpoint fut_prog {S X} (f : fut S X) : prog S X :=
  match f with
  | Fut p =>
      Step (fun s => match p s with
                     | Ret (s', Ready x) => Ret (s', Done x)
                     | Ret (s', Pending _ f') => Ret (s', fut_prog f')
                     | Panic => Panic
                     | NoFuel => NoFuel
                     end)
  end.

Section SharedAdaptors.
  Context {S V F E O RT : Type}.

  (** [SharedEncoder], shared_encoder.rs 43-62, and [SharedRelativeEncoder], shared_relative_encoder.rs 33-71. *)
  Definition a_shared_encoder (encode : a_encode_fn V) (C : a_bulk_consumer S byte F E)
    : unit -> ecall infallible V F -> unit * body S (res unit E) :=
    shared_encoder (fun item => fut_prog (encode _ _ _ C item)) (fut_prog (ac_flush C)).
  Definition a_shared_relative_encoder (encode : RT -> a_encode_fn V) (C : a_bulk_consumer S byte F E)
    : RT -> ecall RT V F -> RT * body S (res unit E) :=
    shared_relative_encoder (fun r item => fut_prog (encode r _ _ _ C item)) (fut_prog (ac_flush C)).

  (** [SharedDecoder] and [SharedCanonicDecoder], shared_decoder.rs 45-64, 101-120; [SharedRelativeDecoder] and
      [SharedRelativeCanonicDecoder], shared_relative_decoder.rs 37-78, 108-151. After [expose_items] is ready, [decode] is first
      polled in a step of its own; as nobody else has access in between, this makes no difference. *)
  Definition a_shared_decoder (decode : a_decode_fn V O) (P : a_bulk_producer S byte F E)
    : unit -> dcall infallible -> unit * body S (bpans V F (decode_error F E O)) :=
    shared_decoder (fut_prog (ap_expose P)) (fut_prog (decode _ _ _ P)) (fut_prog (ap_slurp P)).
  Definition a_shared_relative_decoder (decode : RT -> a_decode_fn V O) (P : a_bulk_producer S byte F E)
    : RT -> dcall RT -> RT * body S (bpans V F (decode_error F E O)) :=
    shared_relative_decoder (fut_prog (ap_expose P)) (fun r => fut_prog (decode r _ _ _ P)) (fut_prog (ap_slurp P)).
End SharedAdaptors.

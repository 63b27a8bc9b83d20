(** Model of the implementations of [Debug], both with the format [{:?}] and with the format [{:#?}].

    The [Debug] of a value is what [fmt] writes into a formatter, a text, or a panic; the argument says whether the flag [#] is set
    ([Formatter::alternate]). Simplifications: writing does not fail; other flags (width, hexadecimal numbers) are not set.
    The builders of core::fmt (builders.rs) are modelled after their documentation and their source. *)
From Coq Require Import Bool List Arith ZArith String Ascii Decimal DecimalString.
From Verif Require Import Prelude Traits QueueModel BasicModel AdaptorModel ScramblerModel SliceModel IoModel PublicModel
  CodecModel EndianModel ErrorModel.
Import ListNotations.
Set Implicit Arguments.
Local Open Scope string_scope.

Definition debug : Type := bool -> outcome string.

(** ** core::fmt *)

Definition newline : ascii := ascii_of_nat 10.
Definition nl : string := String newline "".

(** [PadAdapter], through which the builders write if the flag [#] is set: four spaces at the beginning of each line. *)
Fixpoint pad (on_newline : bool) (s : string) : string :=
  match s with
  | "" => ""
  | String c s => (if on_newline then "    " else "") ++ String c (pad (Ascii.eqb c newline) s)
  end.

(** [DebugStruct]: the calls of [field] and the one of [finish], after [has_fields]. *)
Fixpoint struct_fields (alternate has_fields : bool) (fields : list (string * debug)) : outcome string :=
  match fields with
  | [] => Ret (if has_fields then if alternate then "}" else " }" else "")
  | (name, value) :: fields =>
      let* text := value alternate in
      let* rest := struct_fields alternate true fields in
      Ret ((if alternate then (if has_fields then "" else " {" ++ nl) ++ pad true (name ++ ": " ++ text ++ "," ++ nl)
            else (if has_fields then ", " else " { ") ++ name ++ ": " ++ text) ++ rest)
  end.

(** [f.debug_struct(name).field(..). ... .field(..).finish()]; also what the derived implementation for a struct
    with named fields does. *)
Definition debug_struct (name : string) (fields : list (string * debug)) : debug := fun alternate =>
  let* rest := struct_fields alternate false fields in
  Ret (name ++ rest).

(** [DebugTuple]: the calls of [field] and the one of [finish], after [n] fields; a tuple of one component is written [(x,)]. *)
Fixpoint tuple_fields (alternate empty_name : bool) (n : nat) (fields : list debug) : outcome string :=
  match fields with
  | [] => Ret (if Nat.ltb 0 n then (if Nat.eqb n 1 && empty_name && negb alternate then "," else "") ++ ")" else "")
  | value :: fields =>
      let* text := value alternate in
      let* rest := tuple_fields alternate empty_name (n + 1) fields in
      Ret ((if alternate then (if Nat.eqb n 0 then "(" ++ nl else "") ++ pad true (text ++ "," ++ nl)
            else (if Nat.eqb n 0 then "(" else ", ") ++ text) ++ rest)
  end.

(** [f.debug_tuple(name)...]; also what the derived implementation for structs and variants with positional
    fields does, and, with an empty name, the one of tuples. *)
Definition debug_tuple (name : string) (fields : list debug) : debug := fun alternate =>
  let* rest := tuple_fields alternate (name =? "")%string 0 fields in
  Ret (name ++ rest).

(** [DebugList]: the calls of [entry] and the one of [finish]. *)
Fixpoint list_entries (alternate has_fields : bool) (entries : list debug) : outcome string :=
  match entries with
  | [] => Ret "]"
  | value :: entries =>
      let* text := value alternate in
      let* rest := list_entries alternate true entries in
      Ret ((if alternate then (if has_fields then "" else nl) ++ pad true (text ++ "," ++ nl)
            else (if has_fields then ", " else "") ++ text) ++ rest)
  end.

(** [f.debug_list()...]; also the implementation of slices, [Vec] and [Box<[T]>]. *)
Definition debug_list (entries : list debug) : debug := fun alternate =>
  let* rest := list_entries alternate false entries in
  Ret ("[" ++ rest).

(** A variant without fields, and the standard types. *)
Definition debug_word (s : string) : debug := fun _ => Ret s.
Definition debug_usize (n : nat) : debug := debug_word (display_usize n).
Definition debug_num (i : int) (v : num i) : debug := debug_word (NilEmpty.string_of_int (Z.to_int (num_val v))).
Definition debug_bool (b : bool) : debug := debug_word (if b then "true" else "false").
Definition debug_unit (u : unit) : debug := debug_word "()".
Definition debug_slice {T} (item : T -> debug) (l : list T) : debug := debug_list (map item l).
Definition debug_option {A} (a : A -> debug) (o : option A) : debug :=
  match o with None => debug_word "None" | Some x => debug_tuple "Some" [a x] end.
Definition debug_result {A B} (a : A -> debug) (b : B -> debug) (r : res A B) : debug :=
  match r with Ok x => debug_tuple "Ok" [a x] | Err y => debug_tuple "Err" [b y] end.
Definition debug_either {A B} (a : A -> debug) (b : B -> debug) (r : A + B) : debug :=
  match r with inl x => debug_tuple "Left" [a x] | inr y => debug_tuple "Right" [b y] end.
Definition debug_pair {A B} (a : A -> debug) (b : B -> debug) (p : A * B) : debug :=
  debug_tuple "" [a (fst p); b (snd p)].

(** ** ufotofu_queues *)

(** [DataDebugger] and [Debug] of [Fixed], fixed.rs 356-390 (393-427 with the feature nightly). *)
Definition debug_fixed {T} (item : T -> debug) (q : fixed T) : debug :=
  debug_struct "Fixed"
    [("capacity", debug_usize (fixed_capacity q)); ("len", debug_usize (fx_amount q));
     ("data", fun alternate => let* d := fixed_debug_data q in debug_list (map item d) alternate)].

(** [DataDebugger] and [Debug] of [Static], static_.rs 134-165. *)
Definition debug_static {T} (N : nat) (item : T -> debug) (q : static T) : debug :=
  debug_struct "Static"
    [("len", debug_usize (st_amount q));
     ("data", fun alternate => let* d := static_debug_data N q in debug_list (map item d) alternate)].

(** ** ufotofu *)

(** producer/invariant.rs 37-41, producer/invariant_noop.rs 31-35, consumer/invariant.rs 33-37, consumer/invariant_noop.rs 27-31. *)
Definition debug_invariant {S} (inner : S -> debug) (s : invariant S) : debug := inner (inv_inner s).

(** The exported types: [invarianted_impl_debug!], common_macros.rs 4-17. *)
Definition debug_public {S} (inner : S -> debug) (s : invariant S) : debug := debug_invariant inner s.

(** test_yielder.rs 13-17, derived. *)
Definition debug_yielder (y : yielder) : debug :=
  debug_struct "TestYielder" [("pattern", debug_slice debug_bool (y_pattern y)); ("index", debug_usize (y_index y))].

(** errors.rs 9-15, 53-59, 91-97, derived. *)
Definition debug_pipe_error {PE CE} (pe : PE -> debug) (ce : CE -> debug) (err : pipe_error PE CE) : debug :=
  match err with PipeProducer e => debug_tuple "Producer" [pe e] | PipeConsumer e => debug_tuple "Consumer" [ce e] end.
Definition debug_cale {E} (e : E -> debug) (err : consume_at_least_error E) : debug :=
  debug_struct "ConsumeAtLeastError" [("count", debug_usize (cale_count err)); ("reason", e (cale_reason err))].
Definition debug_pale {F E} (f : F -> debug) (e : E -> debug) (err : produce_at_least_error F E) : debug :=
  debug_struct "ProduceAtLeastError" [("count", debug_usize (pale_count err)); ("reason", debug_either f e (pale_reason err))].

Section Types.
  Context {T F E : Type} (item : T -> debug) (fin : F -> debug) (err : E -> debug).

  (** producer/empty.rs 51-55. *)
  Definition debug_empty (s : option F) : debug := debug_struct "Empty" [("fin", debug_option fin s)].

  (** producer/from_slice.rs 143-144 and producer/from_boxed_slice.rs 179-180, derived. *)
  Definition debug_from_slice (s : from_slice T) : debug :=
    debug_tuple "FromSlice" [debug_slice item (fs_slice s); debug_usize (fs_offset s)].
  Definition debug_from_boxed_slice (s : from_slice T) : debug :=
    debug_tuple "FromBoxedSlice" [debug_slice item (fs_slice s); debug_usize (fs_offset s)].

  (** producer/test_producer.rs 301-307, derived. *)
  Definition debug_test_producer (s : nested_tp_state T F E) : debug :=
    debug_struct "TestProducer"
      [("inner", debug_public debug_from_boxed_slice (ntp_inner s));
       ("last", debug_option (debug_result fin err) (ntp_last s));
       ("exposed_items_sizes", debug_option (debug_pair (debug_slice debug_usize) debug_usize) (ntp_sizes s));
       ("yielder", debug_option debug_yielder (ntp_yielder s))].

  (** consumer/into_vec.rs 128-132, derived. *)
  Definition debug_into_vec (s : into_vec T) : debug :=
    debug_struct "IntoVec" [("v", debug_slice item (iv_v s)); ("consumed", debug_usize (iv_consumed s))].

  (** consumer/into_slice.rs 62-63, derived. *)
  Definition debug_into_slice (s : into_slice T) : debug :=
    debug_tuple "IntoSlice" [debug_slice item (is_slice s); debug_usize (is_offset s)].

  (** consumer/test_consumer.rs 348-359. *)
  Definition debug_test_consumer (s : nested_tc_state T F E) : debug :=
    debug_struct "TestConsumer"
      [("inner", debug_public debug_into_vec (ntc_inner s));
       ("final", debug_option fin (ntc_fin s));
       ("error", debug_option err (ntc_error s));
       ("operations_until_error", debug_usize (ntc_left s));
       ("exposed_slot_sizes", debug_option (debug_pair (debug_slice debug_usize) debug_usize) (ntc_sizes s));
       ("yielder", debug_option debug_yielder (ntc_yielder s))].

  (** producer/bulk_scrambler.rs 19-24 and 113-130, derived. *)
  Definition debug_pscr_op (o : pscr_op) : debug :=
    match o with
    | ScProduce => debug_word "Produce"
    | ScConsiderProduced n => debug_tuple "ConsiderProduced" [debug_usize n]
    | ScSlurp => debug_word "Slurp"
    end.
  Definition debug_pscr {S} (inner : S -> debug) (s : pscr S T F E) : debug :=
    debug_struct "BulkScrambler"
      [("inner", inner (ps_inner s)); ("buffer", debug_fixed item (ps_buffer s));
       ("last", debug_option (debug_result fin err) (ps_last s));
       ("operations", debug_slice debug_pscr_op (ps_operations s)); ("operations_index", debug_usize (ps_index s))].

  (** consumer/bulk_scrambler.rs 18-23 and 111-127, derived. *)
  Definition debug_cscr_op (o : cscr_op) : debug :=
    match o with
    | ScConsume => debug_word "Consume"
    | ScConsumeSlots n => debug_tuple "ConsumeSlots" [debug_usize n]
    | ScFlush => debug_word "Flush"
    end.
  Definition debug_cscr {S} (inner : S -> debug) (s : cscr S T) : debug :=
    debug_struct "BulkScrambler"
      [("inner", inner (cs_inner s)); ("buffer", debug_fixed item (cs_buffer s));
       ("operations", debug_slice debug_cscr_op (cs_operations s)); ("operations_index", debug_usize (cs_index s))].
End Types.

(** producer/limit.rs 6-10 and consumer/limit.rs 4-8, derived. *)
Definition debug_limit {S} (inner : S -> debug) (s : limit S) : debug :=
  debug_struct "Limit" [("inner", inner (lim_inner s)); ("remaining", debug_usize (lim_remaining s))].

(** producer/map_item.rs 12-18 and consumer/map_item.rs 13-19. *)
Definition debug_map_item {S W} (inner : S -> debug) (s : map_item S W) : debug :=
  debug_struct "MapItem" [("inner", inner (mi_inner s))].

(** producer/map_final.rs 12-18 and consumer/map_final.rs 13-19. *)
Definition debug_map_final {S G} (inner : S -> debug) (s : with_fun S G) : debug :=
  debug_struct "MapFinal" [("inner", inner (wf_inner s))].

(** producer/map_error.rs 12-18 and consumer/map_error.rs 10-16. *)
Definition debug_map_error {S G} (inner : S -> debug) (s : with_fun S G) : debug :=
  debug_struct "MapError" [("inner", inner (wf_inner s))].

(** producer/reader.rs 11-12 and 116-120, consumer/writer.rs 10-14, derived. *)
Definition debug_buf_reader {S} (reader : S -> debug) (s : S) : debug := debug_tuple "BufReaderToBulkProducer" [reader s].
Definition debug_reader {S Q} (reader : S -> debug) (queue : Q -> debug) (s : reader_state S Q) : debug :=
  debug_struct "ReaderToBulkProducer" [("reader", reader (rs_reader s)); ("queue", queue (rs_queue s))].
Definition debug_writer {S Q} (writer : S -> debug) (queue : Q -> debug) (s : writer_state S Q) : debug :=
  debug_struct "WriterToBulkConsumer" [("writer", writer (ws_writer s)); ("queue", queue (ws_queue s))].

(** ** ufotofu_codec *)

(** decode_error.rs 21-26 and 106-112, derived. *)
Definition debug_decode_error {F E O} (f : F -> debug) (e : E -> debug) (o : O -> debug) (err : decode_error F E O) : debug :=
  match err with
  | UnexpectedEndOfInput x => debug_tuple "UnexpectedEndOfInput" [f x]
  | Producer x => debug_tuple "Producer" [e x]
  | Other x => debug_tuple "Other" [o x]
  end.
Definition debug_blame (b : blame) : debug :=
  match b with OurFault => debug_word "OurFault" | TheirFault => debug_word "TheirFault" end.

(** [EncodedPair], test_vector_generation.rs 497-502, derived. *)
Definition debug_encoded_pair {V R} (v : V -> debug) (r : R -> debug) (p : V * R) : debug :=
  debug_struct "EncodedPair" [("actual_value", v (fst p)); ("relative_to", r (snd p))].

(** ** ufotofu_codec_endian *)

(** lib.rs 40-42 and 128-130, derived; the names are those in 214-232. *)
Definition wrapper_name (w : wrapper) : string :=
  match w with
  | U8BE => "U8BE" | U16BE => "U16BE" | U32BE => "U32BE" | U64BE => "U64BE"
  | I8BE => "I8BE" | I16BE => "I16BE" | I32BE => "I32BE" | I64BE => "I64BE"
  | U8LE => "U8LE" | U16LE => "U16LE" | U32LE => "U32LE" | U64LE => "U64LE"
  | I8LE => "I8LE" | I16LE => "I16LE" | I32LE => "I32LE" | I64LE => "I64LE"
  end.
Definition debug_endian (w : wrapper) (v : num (wrapped w)) : debug := debug_tuple (wrapper_name w) [debug_num v].

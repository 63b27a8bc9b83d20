(** What the [Debug] texts should be: trees of words, structs, tuples and lists, and how to write these down, on one
    line or on several. *)
From Coq Require Import Bool List Arith ZArith String Ascii Decimal DecimalString.
From Verif Require Import Prelude ScramblerModel EndianModel EndianSpec DebugModel.
Import ListNotations.
Set Implicit Arguments.
Local Open Scope string_scope.

(** [Struct] and [Tuple] have a name (that of a tuple may be empty) and at least one part; a struct or a variant without parts is a
    [Word]. *)
Inductive tree : Type :=
| Word (s : string)
| Unit
| Struct (name : string) (fields : list (string * tree))
| Tuple (name : string) (parts : list tree)
| Listing (parts : list tree).

(** On one line. *)
Fixpoint compact (t : tree) : string :=
  match t with
  | Word s => s
  | Unit => "()"
  | Struct name fields =>
      name ++ " { " ++ String.concat ", " (map (fun p => fst p ++ ": " ++ compact (snd p)) fields) ++ " }"
  | Tuple name parts => name ++ "(" ++ String.concat ", " (map compact parts) ++ ")"
  | Listing parts => "[" ++ String.concat ", " (map compact parts) ++ "]"
  end.

(** On several lines, one for each word and two for everything with parts, whose parts are indented by four spaces
    and followed by a comma. *)
Definition indent (line : string) : string := "    " ++ line.
Definition labelled (label : string) (lines : list string) : list string :=
  match lines with [] => [] | line :: lines => (label ++ line) :: lines end.
Fixpoint comma (lines : list string) : list string :=
  match lines with
  | [] => []
  | [line] => [line ++ ","]
  | line :: lines => line :: comma lines
  end.
Fixpoint lines (t : tree) : list string :=
  match t with
  | Word s => [s]
  | Unit => ["()"]
  | Struct name fields =>
      (name ++ " {")%string :: flat_map (fun p => map indent (comma (labelled (fst p ++ ": ")%string (lines (snd p))))) fields ++ ["}"]
  | Tuple name parts =>
      (name ++ "(")%string :: flat_map (fun p => map indent (comma (lines p))) parts ++ [")"]
  | Listing [] => ["[]"]
  | Listing parts => "[" :: flat_map (fun p => map indent (comma (lines p))) parts ++ ["]"]
  end%list.
Definition pretty (t : tree) : string := String.concat nl (lines t).

(** The flag is [#]. *)
Definition text (alternate : bool) (t : tree) : string := if alternate then pretty t else compact t.

(** Words contain no spaces, line breaks, brackets, commas and colons. *)
Definition plain (c : ascii) : bool := forallb (fun d => negb (Ascii.eqb c d)) (list_ascii_of_string (" ,:()[]{}" ++ nl)).
Definition is_word (s : string) : Prop := s <> "" /\ forallb plain (list_ascii_of_string s) = true.

Fixpoint readable (t : tree) : Prop :=
  match t with
  | Word s => is_word s
  | Unit => True
  | Struct name fields =>
      is_word name /\ fields <> [] /\
      fold_right (fun p rest => (is_word (fst p) /\ readable (snd p)) /\ rest) True fields
  | Tuple name parts =>
      (is_word name /\ parts <> [] \/ name = "" /\ 2 <= List.length parts) /\ fold_right (fun p rest => readable p /\ rest) True parts
  | Listing parts => fold_right (fun p rest => readable p /\ rest) True parts
  end.

(** A [Debug] that does not panic and writes a tree. *)
Definition writes (d : debug) (t : tree) : Prop := forall alternate, d alternate = Ret (text alternate t).

(** ... and one that can be told apart from what is around it. *)
Definition part_writes (d : debug) (t : tree) : Prop := readable t /\ writes d t.

(** A [Debug] of a type whose texts tell [R] about two values with the same text, of values with the property [P]. *)
Definition clear {A} (P : A -> Prop) (R : A -> A -> Prop) (show : A -> debug) : Prop :=
  exists describe : A -> tree,
    (forall a, P a -> part_writes (show a) (describe a)) /\
    (forall a b, P a -> P b -> describe a = describe b -> R a b).

Definition any {A} (a : A) : Prop := True.

(** ** The trees of the standard types *)

Definition t_number (n : nat) : tree := Word (NilEmpty.string_of_uint (Nat.to_uint n)).
Definition t_integer (z : Z) : tree := Word (NilEmpty.string_of_int (Z.to_int z)).

(** The name of a wrapper announces the sign, the number of bits and the order of the bytes. *)
Definition announced_name (w : wrapper) : string :=
  (if is_signed (wrapped w) then "I" else "U") ++ NilEmpty.string_of_uint (Nat.to_uint (BITS (wrapped w))) ++
  match order w with BigEndian => "BE" | LittleEndian => "LE" end.
Definition t_bool (b : bool) : tree := Word (if b then "true" else "false").
Definition t_option {A} (a : A -> tree) (o : option A) : tree := match o with None => Word "None" | Some x => Tuple "Some" [a x] end.
Definition t_result {A B} (a : A -> tree) (b : B -> tree) (r : res A B) : tree :=
  match r with Ok x => Tuple "Ok" [a x] | Err y => Tuple "Err" [b y] end.
Definition t_list {A} (a : A -> tree) (l : list A) : tree := Listing (map a l).
Definition t_sizes (o : option (list nat * nat)) : tree :=
  t_option (fun p => Tuple "" [t_list t_number (fst p); t_number (snd p)]) o.

(** That of the state of a queue: its capacity, and its contents. *)
Definition t_fixed {T} (item : T -> tree) (c : nat) (items : list T) : tree :=
  Struct "Fixed" [("capacity", t_number c); ("len", t_number (List.length items)); ("data", t_list item items)].

(** ** The trees of the types of the library *)

Definition t_yielder (pattern : list bool) (index : nat) : tree :=
  Struct "TestYielder" [("pattern", t_list t_bool pattern); ("index", t_number index)].
Definition t_from_slice {T} (name : string) (item : T -> tree) (l : list T) (offset : nat) : tree :=
  Tuple name [t_list item l; t_number offset].
Definition t_into_vec {T} (item : T -> tree) (v : list T) (consumed : nat) : tree :=
  Struct "IntoVec" [("v", t_list item v); ("consumed", t_number consumed)].
Definition t_limit (inner : tree) (remaining : nat) : tree := Struct "Limit" [("inner", inner); ("remaining", t_number remaining)].
Definition t_map (name : string) (inner : tree) : tree := Struct name [("inner", inner)].
Definition t_test_producer {T F E} (item : T -> tree) (fin : F -> tree) (err : E -> tree) (l : list T) (offset : nat)
    (last : option (res F E)) (sizes : option (list nat * nat)) (yielder : option (list bool * nat)) : tree :=
  Struct "TestProducer"
    [("inner", t_from_slice "FromBoxedSlice" item l offset); ("last", t_option (t_result fin err) last);
     ("exposed_items_sizes", t_sizes sizes); ("yielder", t_option (fun y => t_yielder (fst y) (snd y)) yielder)].
Definition t_test_consumer {T F E} (item : T -> tree) (fin : F -> tree) (err : E -> tree) (v : list T) (consumed : nat)
    (final : option F) (error : option E) (left : nat) (sizes : option (list nat * nat)) (yielder : option (list bool * nat)) : tree :=
  Struct "TestConsumer"
    [("inner", t_into_vec item v consumed); ("final", t_option fin final); ("error", t_option err error);
     ("operations_until_error", t_number left); ("exposed_slot_sizes", t_sizes sizes);
     ("yielder", t_option (fun y => t_yielder (fst y) (snd y)) yielder)].
Definition t_pscr_op (o : pscr_op) : tree :=
  match o with ScProduce => Word "Produce" | ScConsiderProduced n => Tuple "ConsiderProduced" [t_number n] | ScSlurp => Word "Slurp" end.
Definition t_cscr_op (o : cscr_op) : tree :=
  match o with ScConsume => Word "Consume" | ScConsumeSlots n => Tuple "ConsumeSlots" [t_number n] | ScFlush => Word "Flush" end.

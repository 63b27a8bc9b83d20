(** For the targets that send bytes over a connection. *)
From Coq Require Import Bool List Arith.
From Verif Require Import Prelude Traits IoModel IoSpec.
Import ListNotations.
Set Implicit Arguments.

(** The last thing the writer did was to close without an error. *)
Definition closed {T} (log : list (wcall T)) : Prop := exists before, log = before ++ [WClose (Ok tt)].

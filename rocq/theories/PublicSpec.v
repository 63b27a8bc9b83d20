(** Vocabulary for comparing builds: running any list of calls, whether or not the rules permit them. *)
From Coq Require Import List.
From Verif Require Import Prelude Traits Contracts.
Import ListNotations.
Set Implicit Arguments.

(** All answers to a list of calls, and how it ends. *)
Fixpoint p_runs {S T F E} (P : bulk_producer S T F E) (ops : list (pop T)) (s : S)
  : list (pans T F E) * outcome S :=
  match ops with
  | [] => ([], Ret s)
  | o :: ops =>
      match p_do P o s with
      | Ret (s, r) => (r :: fst (p_runs P ops s), snd (p_runs P ops s))
      | Panic => ([], Panic)
      | NoFuel => ([], NoFuel)
      end
  end.

Fixpoint c_runs {S T F E} (C : bulk_consumer S T F E) (ops : list (cop T F)) (s : S)
  : list (cans E) * outcome S :=
  match ops with
  | [] => ([], Ret s)
  | o :: ops =>
      match c_do C o s with
      | Ret (s, r) => (r :: fst (c_runs C ops s), snd (c_runs C ops s))
      | Panic => ([], Panic)
      | NoFuel => ([], NoFuel)
      end
  end.

Definition end_map {S S'} (f : S -> S') (o : outcome S) : outcome S' :=
  match o with Ret s => Ret (f s) | Panic => Panic | NoFuel => NoFuel end.

(** Proofs about the [Debug] texts: how they are laid out, and that they are unambiguous. *)
From Coq Require Import Bool List Arith ZArith String Ascii Decimal DecimalString DecimalNat DecimalZ DecimalFacts Lia.
From Verif Require Import Prelude ErrorModel ErrorProofs DebugModel DebugSpec.
Import ListNotations.
Set Implicit Arguments.
Local Open Scope string_scope.

(** ** Induction over trees *)

Lemma tree_induction : forall (P : tree -> Prop),
  (forall s, P (Word s)) -> P Unit ->
  (forall n fs, Forall (fun p => P (snd p)) fs -> P (Struct n fs)) ->
  (forall n ps, Forall P ps -> P (Tuple n ps)) ->
  (forall ps, Forall P ps -> P (Listing ps)) ->
  forall t, P t.
Proof.
  intros P HW HU HS HT HL. fix IH 1. intros [s| |n fs|n ps|ps]; [apply HW|exact HU|apply HS|apply HT|apply HL].
  - induction fs as [|p fs IHfs]; constructor; [apply IH|exact IHfs].
  - induction ps as [|p ps IHps]; constructor; [apply IH|exact IHps].
  - induction ps as [|p ps IHps]; constructor; [apply IH|exact IHps].
Qed.

Definition good_field (p : string * tree) : Prop := is_word (fst p) /\ readable (snd p).

Lemma fold_forall : forall X (Q : X -> Prop) l, fold_right (fun p rest => Q p /\ rest) True l <-> Forall Q l.
Proof.
  intros X Q l. induction l as [|x l IH]; cbn [fold_right]; split; intros H; auto.
  - constructor; [apply H|apply IH, H].
  - inversion H; subst. split; [assumption|now apply IH].
Qed.

Lemma readable_struct : forall n fs, readable (Struct n fs) <-> is_word n /\ fs <> [] /\ Forall good_field fs.
Proof. intros n fs. cbn [readable]. now rewrite (fold_forall good_field). Qed.
Lemma readable_tuple : forall n ps, readable (Tuple n ps) <->
  (is_word n /\ ps <> [] \/ n = "" /\ 2 <= List.length ps) /\ Forall readable ps.
Proof. intros n ps. cbn [readable]. now rewrite (fold_forall readable). Qed.
Lemma readable_listing : forall ps, readable (Listing ps) <-> Forall readable ps.
Proof. intros ps. cbn [readable]. now rewrite (fold_forall readable). Qed.

(** ** Lines *)

Lemma app_nil_str : forall a : string, a ++ "" = a.
Proof. induction a as [|x a IH]; cbn; [reflexivity|now rewrite IH]. Qed.

Fixpoint one_line (s : string) : Prop := match s with "" => True | String c s => c <> newline /\ one_line s end.

Lemma one_line_app : forall a b, one_line a -> one_line b -> one_line (a ++ b).
Proof. induction a as [|c a IH]; intros b Ha Hb; cbn in *; [exact Hb|]. split; [apply Ha|apply IH; [apply Ha|exact Hb]]. Qed.

Lemma plain_newline : forall c, plain c = true -> c <> newline.
Proof. intros c H ->. discriminate H. Qed.

Lemma word_one_line : forall s, is_word s -> one_line s.
Proof.
  intros s [_ H]. induction s as [|c s IH]; [exact I|]. cbn [list_ascii_of_string forallb] in H. apply andb_prop in H. destruct H as [Hc H].
  split; [now apply plain_newline|now apply IH].
Qed.

(** Every line followed by a line break. *)
Definition broken (ls : list string) : string := fold_right (fun l rest => l ++ nl ++ rest) "" ls.

Lemma broken_cons : forall l ls, broken (l :: ls) = l ++ nl ++ broken ls.
Proof. reflexivity. Qed.

Lemma broken_app : forall a b, broken (a ++ b)%list = broken a ++ broken b.
Proof.
  induction a as [|l a IH]; intros b; [reflexivity|].
  change ((l :: a) ++ b)%list with (l :: (a ++ b)%list). rewrite !broken_cons, IH. now rewrite !app_assoc_str.
Qed.

Lemma concat_cons : forall sep l ls, ls <> [] -> String.concat sep (l :: ls) = l ++ sep ++ String.concat sep ls.
Proof. intros sep l [|m ls] H; [congruence|reflexivity]. Qed.

Lemma concat_last : forall ls x, String.concat nl (ls ++ [x])%list = broken ls ++ x.
Proof.
  induction ls as [|l ls IH]; intros x; [reflexivity|].
  change ((l :: ls) ++ [x])%list with (l :: (ls ++ [x])%list). rewrite concat_cons by (destruct ls; discriminate).
  rewrite IH, broken_cons. now rewrite !app_assoc_str.
Qed.

Lemma concat_broken : forall ls, ls <> [] -> String.concat nl ls ++ nl = broken ls.
Proof.
  induction ls as [|l ls IH]; intros H; [congruence|]. destruct ls as [|m ls]; [cbn; now rewrite ?app_nil_str|].
  rewrite concat_cons by discriminate. rewrite broken_cons, <- IH by discriminate. now rewrite !app_assoc_str.
Qed.

Lemma pad_inside : forall l s, one_line l -> pad false (l ++ nl ++ s) = l ++ nl ++ pad true s.
Proof.
  induction l as [|c l IH]; intros s H; [reflexivity|]. cbn [append pad]. destruct H as [H1 H2].
  destruct (Ascii.eqb_spec c newline) as [->|_]; [congruence|]. now rewrite IH.
Qed.

Lemma pad_line : forall l s, one_line l -> pad true (l ++ nl ++ s) = indent l ++ nl ++ pad true s.
Proof.
  intros [|c l] s H; [reflexivity|]. unfold indent. change (String c l ++ nl ++ s) with (String c (l ++ nl ++ s)).
  cbn [pad]. destruct H as [H1 H2]. destruct (Ascii.eqb_spec c newline) as [->|_]; [congruence|].
  rewrite pad_inside by exact H2. now rewrite app_assoc_str.
Qed.

Lemma pad_broken : forall ls, Forall one_line ls -> pad true (broken ls) = broken (map indent ls).
Proof.
  induction 1 as [|l ls Hl Hls IH]; [reflexivity|]. cbn [map]. rewrite !broken_cons, pad_line by exact Hl. now rewrite IH.
Qed.

Lemma comma_nonempty : forall ls, ls <> [] -> comma ls <> [].
Proof. intros [|l [|m ls]] H; cbn; congruence. Qed.
Lemma labelled_nonempty : forall p ls, ls <> [] -> labelled p ls <> [].
Proof. intros p [|l ls] H; cbn; congruence. Qed.
Lemma concat_comma : forall ls, ls <> [] -> String.concat nl (comma ls) = String.concat nl ls ++ ",".
Proof.
  induction ls as [|l ls IH]; intros H; [congruence|]. destruct ls as [|m ls]; [reflexivity|].
  change (comma (l :: m :: ls)) with (l :: comma (m :: ls)). rewrite !concat_cons by (try apply comma_nonempty; discriminate).
  rewrite IH by discriminate. now rewrite !app_assoc_str.
Qed.
Lemma concat_labelled : forall p ls, ls <> [] -> String.concat nl (labelled p ls) = p ++ String.concat nl ls.
Proof. intros p [|l [|m ls]] H; [congruence|reflexivity|]. cbn [labelled]. rewrite !concat_cons by discriminate. now rewrite !app_assoc_str. Qed.
Lemma comma_lines : forall ls, Forall one_line ls -> Forall one_line (comma ls).
Proof.
  intros ls H. induction H as [|l ls Hl Hls IH]; [constructor|]. destruct ls as [|m ls].
  - constructor; [|constructor]. apply one_line_app; [exact Hl|]. split; [discriminate|exact I].
  - change (comma (l :: m :: ls)) with (l :: comma (m :: ls)). now constructor.
Qed.
Lemma labelled_lines : forall p ls, one_line p -> Forall one_line ls -> Forall one_line (labelled p ls).
Proof. intros p ls Hp [|l ls' Hl Hls]; [constructor|]. constructor; [now apply one_line_app|assumption]. Qed.
Lemma indent_lines : forall ls, Forall one_line ls -> Forall one_line (map indent ls).
Proof. induction 1 as [|l ls Hl Hls IH]; constructor; [|exact IH]. unfold indent. apply one_line_app; [|exact Hl]. repeat split; discriminate. Qed.

Lemma lines_nonempty : forall t, lines t <> [].
Proof. intros [s| |n fs|n ps|[|p ps]]; discriminate. Qed.

Lemma label_one_line : forall s, is_word s -> one_line (s ++ ": ").
Proof. intros s H. apply one_line_app; [now apply word_one_line|]. repeat split; discriminate. Qed.

Lemma lines_one_line : forall t, readable t -> Forall one_line (lines t).
Proof.
  assert (HP : forall ps, Forall (fun p => readable p -> Forall one_line (lines p)) ps -> Forall readable ps ->
    Forall one_line (flat_map (fun p => map indent (comma (lines p))) ps)).
  { intros ps IH H. induction H as [|p ps Hp Hps IHps]; [constructor|]. inversion IH; subst. cbn [flat_map]. apply Forall_app.
    split; [|now apply IHps]. apply indent_lines, comma_lines. now apply H1. }
  induction t as [s| |n fs IH|n ps IH|ps IH] using tree_induction; intros H.
  - constructor; [|constructor]. now apply word_one_line.
  - repeat constructor; discriminate.
  - apply readable_struct in H. destruct H as (Hn & _ & Hfs). cbn [lines]. constructor.
    + apply one_line_app; [now apply word_one_line|]. repeat split; discriminate.
    + apply Forall_app. split; [|repeat constructor; discriminate].
      induction Hfs as [|p fs [Hp1 Hp2] Hfs IHfs]; [constructor|]. inversion IH; subst. cbn [flat_map]. apply Forall_app. split; [|now apply IHfs].
      apply indent_lines, comma_lines, labelled_lines; [now apply label_one_line|now apply H1].
  - apply readable_tuple in H. destruct H as (Hn & Hps). cbn [lines]. constructor.
    + apply one_line_app; [|repeat split; discriminate]. destruct Hn as [[Hn _]|[-> _]]; [now apply word_one_line|exact I].
    + apply Forall_app. split; [|repeat constructor; discriminate]. now apply HP.
  - apply readable_listing in H. destruct ps as [|p ps]; [repeat constructor; discriminate|]. cbn [lines]. constructor; [split; [discriminate|exact I]|].
    apply Forall_app. split; [|repeat constructor; discriminate]. now apply HP.
Qed.

(** ** The builders *)

(** What is written for a part, after the bracket or the part before it. *)
Lemma pad_part : forall t, readable t -> pad true (pretty t ++ "," ++ nl) = broken (map indent (comma (lines t))).
Proof.
  intros t H. unfold pretty. rewrite <- app_assoc_str, <- concat_comma by apply lines_nonempty.
  rewrite concat_broken by apply comma_nonempty, lines_nonempty. apply pad_broken, comma_lines, lines_one_line, H.
Qed.
Lemma pad_field : forall n t, is_word n -> readable t ->
  pad true (n ++ ": " ++ pretty t ++ "," ++ nl) = broken (map indent (comma (labelled (n ++ ": ") (lines t)))).
Proof.
  intros n t Hn H. unfold pretty.
  replace (n ++ ": " ++ String.concat nl (lines t) ++ "," ++ nl) with (((n ++ ": ") ++ String.concat nl (lines t)) ++ "," ++ nl) by now rewrite !app_assoc_str.
  rewrite <- concat_labelled by apply lines_nonempty.
  rewrite <- app_assoc_str, <- concat_comma by apply labelled_nonempty, lines_nonempty.
  rewrite concat_broken by apply comma_nonempty, labelled_nonempty, lines_nonempty. apply pad_broken, comma_lines, labelled_lines; [now apply label_one_line|apply lines_one_line, H].
Qed.

Definition field_writes (d : string * debug) (p : string * tree) : Prop := fst d = fst p /\ is_word (fst p) /\ readable (snd p) /\ writes (snd d) (snd p).

(** Parts on one line: each after the separator. *)
Definition after_sep (ss : list string) : string := fold_right (fun s rest => ", " ++ s ++ rest) "" ss.
Lemma concat_sep : forall s ss, String.concat ", " (s :: ss) = s ++ after_sep ss.
Proof.
  intros s ss. revert s. induction ss as [|t ss IH]; intros s; [cbn; now rewrite app_nil_str|].
  rewrite concat_cons by discriminate. rewrite IH. cbn [after_sep fold_right]. reflexivity.
Qed.

Lemma struct_more_compact : forall fs ts, Forall2 field_writes fs ts ->
  struct_fields false true fs = Ret (after_sep (map (fun p => fst p ++ ": " ++ compact (snd p)) ts) ++ " }").
Proof.
  induction 1 as [|[n d] [m t] fs ts (E & Hn & Ht & Hw) H IH]; [reflexivity|]. cbn [fst snd] in *. subst m.
  cbn [struct_fields]. rewrite (Hw false), IH. cbn [bind]. cbn [map after_sep fold_right fst snd text]. now rewrite !app_assoc_str.
Qed.
Lemma struct_more_pretty : forall fs ts, Forall2 field_writes fs ts ->
  struct_fields true true fs =
    Ret (broken (flat_map (fun p => map indent (comma (labelled (fst p ++ ": ") (lines (snd p))))) ts) ++ "}").
Proof.
  induction 1 as [|[n d] [m t] fs ts (E & Hn & Ht & Hw) H IH]; [reflexivity|]. cbn [fst snd] in *. subst m.
  cbn [struct_fields]. rewrite (Hw true), IH. cbn [bind text flat_map fst snd]. rewrite pad_field by assumption.
  now rewrite broken_app, !app_assoc_str.
Qed.

Lemma struct_writes : forall name fs ts, Forall2 field_writes fs ts -> ts <> [] -> writes (debug_struct name fs) (Struct name ts).
Proof.
  intros name fs ts H Hts alternate. destruct H as [|[n d] [m t] fs ts (E & Hn & Ht & Hw) H]; [congruence|]. cbn [fst snd] in *. subst m.
  unfold debug_struct. cbn [struct_fields]. rewrite (Hw alternate). cbn [bind]. destruct alternate; cbn [text].
  - rewrite (struct_more_pretty H). cbn [bind]. rewrite pad_field by assumption.
    unfold pretty. cbn [lines]. rewrite app_comm_cons, concat_last, broken_cons. cbn [flat_map fst snd]. rewrite broken_app. now rewrite !app_assoc_str.
  - rewrite (struct_more_compact H). cbn [bind compact map]. rewrite concat_sep. cbn [fst snd]. now rewrite !app_assoc_str.
Qed.

Lemma tuple_more_compact : forall e ds ts n, Forall2 part_writes ds ts -> 0 < n -> e = false \/ 2 <= n + List.length ts ->
  tuple_fields false e n ds = Ret (after_sep (map compact ts) ++ ")").
Proof.
  intros e ds ts n H. revert n. induction H as [|d t ds ts (Ht & Hw) H IH]; intros n Hn He; cbn [tuple_fields].
  - destruct n as [|[|n]]; [lia| |reflexivity]. destruct He as [->|He]; [reflexivity|]. cbn in He. lia.
  - rewrite (Hw false), IH by (cbn [List.length] in He; lia). cbn [bind]. destruct n as [|n]; [lia|]. cbn [Nat.eqb].
    cbn [map after_sep fold_right text]. now rewrite !app_assoc_str.
Qed.
Lemma tuple_more_pretty : forall e ds ts n, Forall2 part_writes ds ts -> 0 < n ->
  tuple_fields true e n ds = Ret (broken (flat_map (fun p => map indent (comma (lines p))) ts) ++ ")").
Proof.
  intros e ds ts n H. revert n. induction H as [|d t ds ts (Ht & Hw) H IH]; intros n Hn; cbn [tuple_fields].
  - destruct n as [|[|n]]; [lia| |reflexivity]. destruct e; reflexivity.
  - rewrite (Hw true), IH by lia. cbn [bind text]. destruct n as [|n]; [lia|]. cbn [Nat.eqb flat_map].
    rewrite pad_part by exact Ht. now rewrite broken_app, !app_assoc_str.
Qed.

Lemma tuple_writes : forall name ds ts, Forall2 part_writes ds ts -> ts <> [] -> name <> "" \/ 2 <= List.length ts ->
  writes (debug_tuple name ds) (Tuple name ts).
Proof.
  intros name ds ts H Hts Hn alternate. destruct H as [|d t ds ts (Ht & Hw) H]; [congruence|].
  unfold debug_tuple. cbn [tuple_fields]. rewrite (Hw alternate). cbn [bind]. destruct alternate; cbn [text].
  - rewrite (tuple_more_pretty _ H) by lia. cbn [bind Nat.eqb]. rewrite pad_part by exact Ht.
    unfold pretty. cbn [lines]. rewrite app_comm_cons, concat_last, broken_cons. cbn [flat_map]. rewrite broken_app. now rewrite !app_assoc_str.
  - rewrite (@tuple_more_compact _ _ _ _ H) by (cbn [List.length] in Hn; destruct (String.eqb_spec name ""); intuition lia).
    cbn [bind compact map Nat.eqb]. rewrite concat_sep. now rewrite !app_assoc_str.
Qed.

Lemma list_more_compact : forall ds ts, Forall2 part_writes ds ts ->
  list_entries false true ds = Ret (after_sep (map compact ts) ++ "]").
Proof.
  induction 1 as [|d t ds ts (Ht & Hw) H IH]; [reflexivity|]. cbn [list_entries]. rewrite (Hw false), IH. cbn [bind map after_sep fold_right text].
  now rewrite !app_assoc_str.
Qed.
Lemma list_more_pretty : forall ds ts, Forall2 part_writes ds ts ->
  list_entries true true ds = Ret (broken (flat_map (fun p => map indent (comma (lines p))) ts) ++ "]").
Proof.
  induction 1 as [|d t ds ts (Ht & Hw) H IH]; [reflexivity|]. cbn [list_entries]. rewrite (Hw true), IH. cbn [bind flat_map text].
  rewrite pad_part by exact Ht. now rewrite broken_app, !app_assoc_str.
Qed.

Lemma list_writes : forall ds ts, Forall2 part_writes ds ts -> writes (debug_list ds) (Listing ts).
Proof.
  intros ds ts H alternate. destruct H as [|d t ds ts (Ht & Hw) H]; [destruct alternate; reflexivity|].
  unfold debug_list. cbn [list_entries]. rewrite (Hw alternate). cbn [bind]. destruct alternate; cbn [text].
  - rewrite (list_more_pretty H). cbn [bind]. rewrite pad_part by exact Ht.
    unfold pretty. cbn [lines]. rewrite app_comm_cons, concat_last, broken_cons. cbn [flat_map]. rewrite broken_app. now rewrite !app_assoc_str.
  - rewrite (list_more_compact H). cbn [bind compact map]. rewrite concat_sep. now rewrite !app_assoc_str.
Qed.

(** ** Reading texts: words and punctuation *)

Inductive token : Type := TWord (s : string) | TPunct (c : ascii).

Definition blank (c : ascii) : bool := Ascii.eqb c " " || Ascii.eqb c newline.
Definition flush_word (w : string) : list token := if w =? "" then [] else [TWord w].

Fixpoint lex (w : string) (s : string) : list token :=
  match s with
  | "" => flush_word w
  | String c s =>
      if plain c then lex (w ++ String c "") s
      else (flush_word w ++ (if blank c then [] else [TPunct c]) ++ lex "" s)%list
  end.

Definition starts_outside (s : string) : Prop := match s with "" => True | String c _ => plain c = false end.

Lemma lex_app : forall a w b, starts_outside b -> lex w (a ++ b) = (lex w a ++ lex "" b)%list.
Proof.
  induction a as [|c a IH]; intros w b Hb.
  - cbn [append lex]. destruct b as [|c b]; [cbn; now rewrite List.app_nil_r|]. cbn [starts_outside] in Hb. cbn [lex]. rewrite Hb. reflexivity.
  - change (String c a ++ b) with (String c (a ++ b)). cbn [lex]. destruct (plain c); [now apply IH|]. rewrite IH by exact Hb. now rewrite !List.app_assoc.
Qed.

Lemma lex_word : forall s w b, forallb plain (list_ascii_of_string s) = true -> lex w (s ++ b) = lex (w ++ s) b.
Proof.
  induction s as [|c s IH]; intros w b H; [cbn [append]; now rewrite app_nil_str|].
  cbn [list_ascii_of_string forallb] in H. apply andb_prop in H. destruct H as [Hc H]. change (String c s ++ b) with (String c (s ++ b)). cbn [lex].
  rewrite Hc, IH by exact H. now rewrite app_assoc_str.
Qed.

Lemma lex_is_word : forall s, is_word s -> lex "" s = [TWord s].
Proof.
  intros s [Hs H]. rewrite <- (app_nil_str s) at 1. rewrite lex_word by exact H. cbn [lex append]. unfold flush_word.
  destruct (String.eqb_spec s ""); [congruence|reflexivity].
Qed.

(** Indentation is invisible. *)
Lemma lex_pad : forall s b w, b = false \/ w = "" -> lex w (pad b s) = lex w s.
Proof.
  induction s as [|c s IH]; intros b w H; [reflexivity|].
  assert (E : lex w (pad b (String c s)) = lex w (String c (pad (Ascii.eqb c newline) s))).
  { cbn [pad]. destruct b; [|reflexivity]. destruct H as [H| ->]; [discriminate|]. reflexivity. }
  rewrite E. cbn [lex]. destruct (plain c) eqn:Hc.
  - apply IH. left. destruct (Ascii.eqb_spec c newline) as [->|]; [discriminate Hc|reflexivity].
  - rewrite IH by now right. reflexivity.
Qed.

(** The tokens of a tree; if [trailing], there is a comma after each part. *)
Fixpoint separated (trailing : bool) (parts : list (list token)) : list token :=
  match parts with
  | [] => []
  | [p] => p ++ (if trailing then [TPunct ","] else [])
  | p :: parts => p ++ TPunct "," :: separated trailing parts
  end%list.

Fixpoint tokens (trailing : bool) (t : tree) : list token :=
  match t with
  | Word s => [TWord s]
  | Unit => [TPunct "("; TPunct ")"]
  | Struct n fs => TWord n :: TPunct "{" :: separated trailing (map (fun p => TWord (fst p) :: TPunct ":" :: tokens trailing (snd p)) fs) ++ [TPunct "}"]
  | Tuple n ps => flush_word n ++ TPunct "(" :: separated trailing (map (tokens trailing) ps) ++ [TPunct ")"]
  | Listing ps => TPunct "[" :: separated trailing (map (tokens trailing) ps) ++ [TPunct "]"]
  end%list.

Lemma separated_cons : forall b p ps, ps <> [] -> separated b (p :: ps) = (p ++ TPunct "," :: separated b ps)%list.
Proof. intros b p [|q ps] H; [congruence|reflexivity]. Qed.

(** Texts of parts, with separators in between. *)
Lemma lex_sep : forall ss s b, starts_outside b ->
  lex "" ((s ++ after_sep ss) ++ b) = (separated false (map (lex "") (s :: ss)) ++ lex "" b)%list.
Proof.
  induction ss as [|t ss IH]; intros s b Hb.
  - cbn [after_sep fold_right map separated]. rewrite app_nil_str, List.app_nil_r. now apply lex_app.
  - cbn [after_sep fold_right]. fold (after_sep ss). rewrite !app_assoc_str. rewrite lex_app by reflexivity.
    change (lex "" (", " ++ (t ++ (after_sep ss ++ b)))) with (TPunct "," :: lex "" (t ++ (after_sep ss ++ b))).
    rewrite <- app_assoc_str, IH by exact Hb. cbn [map]. rewrite (@separated_cons _ (lex "" s)) by discriminate.
    rewrite <- List.app_assoc. reflexivity.
Qed.

(** Lines with commas at their ends. *)
Lemma lex_broken_app : forall ls b, lex "" (broken ls ++ b) = (lex "" (broken ls) ++ lex "" b)%list.
Proof.
  intros ls b. destruct ls as [|l ls]; [reflexivity|]. rewrite <- concat_broken by discriminate. rewrite app_assoc_str.
  rewrite (@lex_app _ _ (nl ++ b)), (@lex_app _ _ nl) by reflexivity. rewrite <- List.app_assoc. reflexivity.
Qed.

Lemma trailing_cons : forall p ps, separated true (p :: ps) = (p ++ TPunct "," :: separated true ps)%list.
Proof. intros p [|q ps]; reflexivity. Qed.

Lemma lex_parts : forall X (ls : X -> list string) (tk : X -> list token) ps b,
  Forall (fun p => lex "" (broken (map indent (comma (ls p)))) = (tk p ++ [TPunct ","])%list) ps ->
  lex "" (broken (flat_map (fun p => map indent (comma (ls p))) ps) ++ b) = (separated true (map tk ps) ++ lex "" b)%list.
Proof.
  intros X ls tk ps b H. induction H as [|p ps Hp H IH]; [reflexivity|]. cbn [flat_map map]. rewrite broken_app, app_assoc_str.
  rewrite lex_broken_app, IH, Hp, trailing_cons. rewrite <- !List.app_assoc. reflexivity.
Qed.

Lemma lex_part : forall t, readable t -> lex "" (broken (map indent (comma (lines t)))) = (lex "" (pretty t) ++ [TPunct ","])%list.
Proof. intros t H. rewrite <- pad_part by exact H. rewrite lex_pad by now right. rewrite lex_app by reflexivity. reflexivity. Qed.
Lemma lex_label : forall n s, is_word n -> lex "" (n ++ ": " ++ s) = TWord n :: TPunct ":" :: lex "" s.
Proof. intros n s H. rewrite lex_app by reflexivity. rewrite lex_is_word by exact H. reflexivity. Qed.
Lemma lex_field : forall n t, is_word n -> readable t ->
  lex "" (broken (map indent (comma (labelled (n ++ ": ") (lines t))))) = ((TWord n :: TPunct ":" :: lex "" (pretty t)) ++ [TPunct ","])%list.
Proof.
  intros n t Hn H. rewrite <- pad_field by assumption. rewrite lex_pad by now right. rewrite lex_label by exact Hn.
  rewrite lex_app by reflexivity. reflexivity.
Qed.

Lemma lex_name : forall n s, is_word n \/ n = "" -> starts_outside s -> lex "" (n ++ s) = (flush_word n ++ lex "" s)%list.
Proof.
  intros n s [H| ->] Hs; [|reflexivity]. rewrite lex_app by exact Hs. rewrite lex_is_word by exact H. unfold flush_word.
  destruct (String.eqb_spec n ""); [destruct H; congruence|reflexivity].
Qed.

Lemma flush_is_word : forall n, is_word n -> flush_word n = [TWord n].
Proof. intros n [H _]. unfold flush_word. destruct (String.eqb_spec n ""); [congruence|reflexivity]. Qed.

Lemma lex_pretty : forall t, readable t -> lex "" (pretty t) = tokens true t.
Proof.
  induction t as [s| |n fs IH|n ps IH|ps IH] using tree_induction; intros H.
  - now apply lex_is_word.
  - reflexivity.
  - apply readable_struct in H. destruct H as (Hn & _ & Hfs). unfold pretty. cbn [lines]. rewrite app_comm_cons, concat_last, broken_cons, !app_assoc_str.
    rewrite lex_name by (now left || reflexivity). rewrite flush_is_word by exact Hn.
    change (lex "" (" {" ++ nl ++ ?x)) with (TPunct "{" :: lex "" x).
    transitivity (TWord n :: TPunct "{" :: lex "" (broken (flat_map (fun p => map indent (comma (labelled (fst p ++ ": ") (lines (snd p))))) fs) ++ "}")); [reflexivity|].
    rewrite (@lex_parts _ _ (fun p => TWord (fst p) :: TPunct ":" :: tokens true (snd p))); [reflexivity|].
    rewrite Forall_forall in *. intros p Hp. destruct (Hfs p Hp) as [H1 H2]. rewrite lex_field by assumption. now rewrite IH.
  - apply readable_tuple in H. destruct H as (Hn & Hps). unfold pretty. cbn [lines]. rewrite app_comm_cons, concat_last, broken_cons, !app_assoc_str.
    rewrite lex_name by (tauto || reflexivity).
    transitivity (flush_word n ++ TPunct "(" :: lex "" (broken (flat_map (fun p => map indent (comma (lines p))) ps) ++ ")"))%list; [reflexivity|].
    rewrite (@lex_parts _ _ (tokens true)); [reflexivity|].
    rewrite Forall_forall in *. intros p Hp. rewrite lex_part by auto. now rewrite IH by auto.
  - apply readable_listing in H. destruct ps as [|p0 ps0]; [reflexivity|]. set (ps := p0 :: ps0) in *. 
    transitivity (lex "" ("[" ++ nl ++ broken (flat_map (fun p => map indent (comma (lines p))) ps) ++ "]")).
    { f_equal. unfold pretty, ps. cbn [lines]. rewrite app_comm_cons, concat_last, broken_cons. now rewrite !app_assoc_str. }
    transitivity (TPunct "[" :: lex "" (broken (flat_map (fun p => map indent (comma (lines p))) ps) ++ "]")); [reflexivity|].
    rewrite (@lex_parts _ _ (tokens true)); [reflexivity|].
    rewrite Forall_forall in *. intros p Hp. rewrite lex_part by auto. now rewrite IH by auto.
Qed.

Lemma lex_compact : forall t, readable t -> lex "" (compact t) = tokens false t.
Proof.
  induction t as [s| |n fs IH|n ps IH|ps IH] using tree_induction; intros H.
  - now apply lex_is_word.
  - reflexivity.
  - apply readable_struct in H. destruct H as (Hn & Hne & Hfs). cbn [compact].
    rewrite lex_name by (now left || reflexivity). rewrite flush_is_word by exact Hn. destruct fs as [|p fs]; [congruence|]. cbn [map].
    rewrite concat_sep. 
    transitivity (TWord n :: TPunct "{" :: lex "" (((fst p ++ ": " ++ compact (snd p)) ++ after_sep (map (fun p => fst p ++ ": " ++ compact (snd p)) fs)) ++ " }")); [reflexivity|].
    rewrite lex_sep by reflexivity. cbn [tokens]. f_equal. f_equal. f_equal. f_equal. 
    change (map (lex "") (map (fun p => fst p ++ ": " ++ compact (snd p)) (p :: fs)) = map (fun p => TWord (fst p) :: TPunct ":" :: tokens false (snd p)) (p :: fs)).
    rewrite map_map. apply map_ext_in. rewrite Forall_forall in *. intros q Hq. destruct (Hfs q Hq) as [H1 H2]. rewrite lex_label by exact H1. now rewrite IH.
  - apply readable_tuple in H. destruct H as (Hn & Hps). cbn [compact].
    rewrite lex_name by (tauto || reflexivity). destruct ps as [|p ps]; [cbn in Hn; destruct Hn as [[_ Hn]|[_ Hn]]; [congruence|lia]|]. cbn [map]. rewrite concat_sep.
    transitivity (flush_word n ++ TPunct "(" :: lex "" ((compact p ++ after_sep (map compact ps)) ++ ")"))%list; [reflexivity|].
    rewrite lex_sep by reflexivity. cbn [tokens]. f_equal. f_equal. f_equal. f_equal.
    change (map (lex "") (map compact (p :: ps)) = map (tokens false) (p :: ps)).
    rewrite map_map. apply map_ext_in. rewrite Forall_forall in *. intros q Hq. now rewrite IH by auto.
  - apply readable_listing in H. cbn [compact]. destruct ps as [|p ps]; [reflexivity|]. cbn [map]. rewrite concat_sep.
    transitivity (TPunct "[" :: lex "" ((compact p ++ after_sep (map compact ps)) ++ "]"))%list; [reflexivity|].
    rewrite lex_sep by reflexivity. cbn [tokens]. f_equal. f_equal. f_equal.
    change (map (lex "") (map compact (p :: ps)) = map (tokens false) (p :: ps)).
    rewrite map_map. apply map_ext_in. rewrite Forall_forall in *. intros q Hq. now rewrite IH by auto.
Qed.

(** ** Unambiguity *)

(** What can follow a part. *)
Definition follows (r : list token) : Prop :=
  match r with [] => True | TPunct c :: _ => In c [","%char; "}"%char; ")"%char; "]"%char] | TWord _ :: _ => False end.

(** What a tree begins with. *)
Lemma tokens_start : forall b t, readable t -> exists k r, tokens b t = k :: r /\
  match k with TWord _ => True | TPunct c => c = "("%char \/ c = "["%char end.
Proof.
  intros b [s| |n fs|n ps|ps] H; cbn [tokens]; try (eexists; eexists; split; [reflexivity|cbn; auto]; fail).
  apply readable_tuple in H. destruct H as ([[H _]|[-> _]] & _).
  - rewrite flush_is_word by exact H. eexists; eexists; split; [reflexivity|exact I].
  - eexists; eexists; split; [reflexivity|now left].
Qed.

Definition unambiguous (b : bool) (t : tree) : Prop := forall t' r r', readable t -> readable t' -> follows r -> follows r' ->
  (tokens b t ++ r = tokens b t' ++ r')%list -> t = t' /\ r = r'.

Lemma closer_follows : forall c r, In c ["}"%char; ")"%char; "]"%char] -> follows (TPunct c :: r).
Proof. intros c r H. cbn in *. tauto. Qed.

(** A sequence of parts up to the closing bracket. *)
Lemma separated_inj : forall X (good : X -> Prop) (tk : X -> list token) b close,
  In close ["}"%char; ")"%char; "]"%char] ->
  (forall x, good x -> exists k r, tk x = k :: r /\ k <> TPunct close) ->
  forall ps, Forall (fun p => forall q r r', good p -> good q -> follows r -> follows r' -> (tk p ++ r = tk q ++ r')%list -> p = q /\ r = r') ps ->
  forall qs r r', Forall good ps -> Forall good qs ->
    (separated b (map tk ps) ++ TPunct close :: r = separated b (map tk qs) ++ TPunct close :: r')%list -> ps = qs /\ r = r'.
Proof.
  intros X good tk b close Hc Hstart ps IH. 
  assert (Hcomma : close <> ","%char) by (cbn in Hc; intuition congruence).
  induction IH as [|p ps Hp IH IHps]; intros [|q qs] r r' G1 G2 E.
  - injection E as ->. now split.
  - exfalso. inversion G2; subst. destruct (Hstart q H1) as (k & w & Ek & Hk). destruct qs; cbn [map separated] in E; rewrite Ek in E; cbn in E; congruence.
  - exfalso. inversion G1; subst. destruct (Hstart p H1) as (k & w & Ek & Hk). destruct ps; cbn [map separated] in E; rewrite Ek in E; cbn in E; congruence.
  - inversion G1; subst. inversion G2; subst.
    assert (F : follows (TPunct close :: r) /\ follows (TPunct close :: r')) by (split; now apply closer_follows). destruct F as [F1 F2].
    assert (FC : forall x, follows (TPunct "," :: x)) by (intros x; cbn; auto).
    destruct ps as [|p' ps]; destruct qs as [|q' qs].
    + cbn [map separated] in E. rewrite <- !List.app_assoc in E. destruct b.
      * destruct (Hp q _ _ H1 H3 (FC _) (FC _) E) as [-> E']. cbn in E'. injection E' as ->. now split.
      * destruct (Hp q _ _ H1 H3 F1 F2 E) as [-> E']. cbn in E'. injection E' as ->. now split.
    + exfalso. cbn [map] in E. rewrite (@separated_cons _ _ (tk q' :: map tk qs)) in E by discriminate. cbn [separated] in E. rewrite <- !List.app_assoc in E.
      change ((TPunct "," :: separated b (tk q' :: map tk qs)) ++ TPunct close :: r')%list with (TPunct "," :: (separated b (tk q' :: map tk qs) ++ TPunct close :: r'))%list in E.
      destruct b.
      * destruct (Hp q _ _ H1 H3 (FC _) (FC _) E) as [-> E']. destruct (Hstart q' (Forall_inv H4)) as (k & w & Ek & Hk).
        injection E' as E'. destruct qs; cbn [map separated] in E'; rewrite Ek in E'; cbn in E'; congruence.
      * destruct (Hp q _ _ H1 H3 F1 (FC _) E) as [-> E']. cbn in E'. congruence.
    + exfalso. cbn [map] in E. rewrite (@separated_cons _ _ (tk p' :: map tk ps)) in E by discriminate. cbn [separated] in E. rewrite <- !List.app_assoc in E.
      change ((TPunct "," :: separated b (tk p' :: map tk ps)) ++ TPunct close :: r)%list with (TPunct "," :: (separated b (tk p' :: map tk ps) ++ TPunct close :: r))%list in E.
      destruct b.
      * destruct (Hp q _ _ H1 H3 (FC _) (FC _) E) as [-> E']. destruct (Hstart p' (Forall_inv H2)) as (k & w & Ek & Hk).
        injection E' as E'. destruct ps; cbn [map separated] in E'; rewrite Ek in E'; cbn in E'; congruence.
      * destruct (Hp q _ _ H1 H3 (FC _) F2 E) as [-> E']. cbn in E'. congruence.
    + cbn [map] in E. rewrite (@separated_cons _ _ (tk p' :: map tk ps)), (@separated_cons _ _ (tk q' :: map tk qs)) in E by discriminate. rewrite <- !List.app_assoc in E.
      destruct (Hp q _ _ H1 H3 (FC _) (FC _) E) as [-> E']. injection E' as E'.
      destruct (IHps (q' :: qs) r r' H2 H4 E') as [-> ->]. now split.
Qed.

Lemma tokens_unambiguous : forall b t, unambiguous b t.
Proof.
  intros b.
  assert (START : forall c, In c ["}"%char; ")"%char; "]"%char] -> forall t, readable t -> exists k r, tokens b t = k :: r /\ k <> TPunct c).
  { intros c Hc t Ht. destruct (tokens_start b t Ht) as (k & r & E & Hk). exists k, r. split; [exact E|]. intros ->. cbn in Hc.
    destruct Hk as [-> | ->]; intuition congruence. }
  assert (PARTS : forall ps, Forall (unambiguous b) ps ->
    Forall (fun p => forall q r r', readable p -> readable q -> follows r -> follows r' -> (tokens b p ++ r = tokens b q ++ r')%list -> p = q /\ r = r') ps).
  { intros ps H. eapply Forall_impl; [|exact H]. intros p Hp q r r' H1 H2 H3 H4 E. exact (Hp q r r' H1 H2 H3 H4 E). }
  induction t as [s| |n fs IH|n ps IH|ps IH] using tree_induction; intros t' r r' H1 H2 F1 F2 E.
  - destruct t' as [s'| |n' fs'|n' ps'|ps']; cbn [tokens] in E; try discriminate.
    + injection E as -> ->. now split.
    + injection E as -> ->. cbn in F1. exfalso. intuition congruence.
    + apply readable_tuple in H2. destruct H2 as ([[H2 _]|[-> _]] & _); [|discriminate]. rewrite flush_is_word in E by exact H2.
      injection E as -> ->. cbn in F1. exfalso. intuition congruence.
  - destruct t' as [s'| |n' fs'|n' ps'|ps']; cbn [tokens] in E; try discriminate.
    + injection E as ->. now split.
    + exfalso. apply readable_tuple in H2. destruct H2 as (H2 & G). destruct H2 as [[H2 _]|[-> H2]].
      * rewrite flush_is_word in E by exact H2. discriminate.
      * destruct ps' as [|p ps']; [cbn in H2; lia|]. destruct (START ")"%char ltac:(cbn; auto) p (Forall_inv G)) as (k & w & Ek & Hk).
        change (flush_word "") with (@nil token) in E. cbn [List.app] in E. injection E as E. cbn [map] in E. destruct ps' as [|p' ps'].
        -- cbn [map separated] in E. rewrite Ek in E. cbn in E. congruence.
        -- cbn [map separated] in E. rewrite Ek in E. cbn in E. congruence.
  - destruct t' as [s'| |n' fs'|n' ps'|ps']; cbn [tokens] in E; try discriminate.
    + injection E as -> E. subst r'. cbn in F2. exfalso. intuition congruence.
    + apply readable_struct in H1. apply readable_struct in H2. destruct H1 as (_ & _ & G1), H2 as (_ & _ & G2).
      injection E as -> E. rewrite <- !List.app_assoc in E. 
      destruct (@separated_inj _ good_field (fun p => TWord (fst p) :: TPunct ":" :: tokens b (snd p)) b "}"%char ltac:(cbn; auto)) with (ps := fs) (qs := fs') (r := r) (r' := r') as [-> ->]; try assumption; [| |now split].
      * intros p _. eexists; eexists; split; [reflexivity|discriminate].
      * eapply Forall_impl; [|exact IH]. intros [f t] Ht [f' t'] s s' [_ K1] [_ K2] K3 K4 E'. cbn [fst snd] in *. cbn [List.app] in E'. injection E' as -> E'.
        destruct (Ht t' s s' K1 K2 K3 K4 E') as [-> ->]. now split.
    + exfalso. apply readable_tuple in H2. destruct H2 as ([[H2 _]|[-> _]] & _); [|discriminate]. rewrite flush_is_word in E by exact H2. cbn in E. discriminate.
  - pose proof H1 as H1'. apply readable_tuple in H1. destruct H1 as (N1 & G1).
    assert (SAME : forall n' ps', readable (Tuple n' ps') -> (tokens b (Tuple n ps) ++ r = tokens b (Tuple n' ps') ++ r')%list -> Tuple n ps = Tuple n' ps' /\ r = r').
    { clear t' H2 E. intros n' ps' H2 E. apply readable_tuple in H2. destruct H2 as (N2 & G2). cbn [tokens] in E.
      assert (EN : n = n' /\ ((TPunct "(" :: separated b (map (tokens b) ps) ++ [TPunct ")"]) ++ r = (TPunct "(" :: separated b (map (tokens b) ps') ++ [TPunct ")"]) ++ r')%list).
      { rewrite <- !List.app_assoc in E. destruct N1 as [[N1 _]|[-> _]]; destruct N2 as [[N2 _]|[-> _]]; change (flush_word "") with (@nil token) in E; repeat (rewrite flush_is_word in E by assumption); cbn [List.app] in E.
        - injection E as -> E. split; [reflexivity|]. cbn [List.app]. now rewrite E.
        - discriminate.
        - discriminate.
        - split; [reflexivity|exact E]. }
      destruct EN as [-> E']. cbn [List.app] in E'. injection E' as E'. rewrite <- !List.app_assoc in E'.
      destruct (@separated_inj _ readable (tokens b) b ")"%char ltac:(cbn; auto) (START ")"%char ltac:(cbn; auto)) ps (PARTS ps IH) ps' r r' G1 G2 E') as [-> ->]. now split. }
    destruct t' as [s'| |n' fs'|n' ps'|ps']; [| | |now apply SAME|]; exfalso.
    + cbn [tokens] in E. destruct N1 as [[N1 _]|[-> _]]; [|discriminate]. rewrite flush_is_word in E by exact N1. cbn in E. injection E as -> E. subst r'. cbn in F2. intuition congruence.
    + cbn [tokens] in E. destruct N1 as [[N1 _]|[-> N1]]; [rewrite flush_is_word in E by exact N1; discriminate|].
      destruct ps as [|p ps]; [cbn in N1; lia|]. destruct (START ")"%char ltac:(cbn; auto) p (Forall_inv G1)) as (k & w & Ek & Hk).
      change (flush_word "") with (@nil token) in E. cbn [List.app] in E. injection E as E. destruct ps as [|p' ps].
      * cbn [map separated] in E. rewrite Ek in E. cbn in E. congruence.
      * cbn [map separated] in E. rewrite Ek in E. cbn in E. congruence.
    + cbn [tokens] in E. destruct N1 as [[N1 _]|[-> _]]; [|discriminate]. rewrite flush_is_word in E by exact N1. cbn in E. discriminate.
    + cbn [tokens] in E. destruct N1 as [[N1 _]|[-> _]]; [rewrite flush_is_word in E by exact N1|]; discriminate.
  - apply readable_listing in H1. destruct t' as [s'| |n' fs'|n' ps'|ps']; cbn [tokens] in E; try discriminate.
    + exfalso. apply readable_tuple in H2. destruct H2 as ([[H2 _]|[-> _]] & _); [|discriminate]. rewrite flush_is_word in E by exact H2. discriminate.
    + apply readable_listing in H2. cbn [List.app] in E. injection E as E. rewrite <- !List.app_assoc in E.
      destruct (@separated_inj _ readable (tokens b) b "]"%char ltac:(cbn; auto) (START "]"%char ltac:(cbn; auto)) ps (PARTS ps IH) ps' r r' H1 H2 E) as [-> ->]. now split.
Qed.

Lemma lex_text : forall alternate t, readable t -> lex "" (text alternate t) = tokens alternate t.
Proof. intros [|] t H; [now apply lex_pretty|now apply lex_compact]. Qed.

Lemma text_injective : forall alternate t t', readable t -> readable t' -> text alternate t = text alternate t' -> t = t'.
Proof.
  intros b t t' H H' E. apply (f_equal (lex "")) in E. rewrite !lex_text in E by assumption.
  apply (@tokens_unambiguous b t t' [] []); try assumption; try exact I. now rewrite !List.app_nil_r.
Qed.

(** ** Clear implementations *)

Lemma clear_text : forall A (P : A -> Prop) R show, clear P R show -> forall a b alternate s,
  P a -> P b -> show a alternate = Ret s -> show b alternate = Ret s -> R a b.
Proof.
  intros A P R show (d & H1 & H2) a b alternate s Ha Hb Ea Eb. apply H2; auto. destruct (H1 a Ha) as [Ra Wa], (H1 b Hb) as [Rb Wb].
  rewrite (Wa alternate) in Ea. rewrite (Wb alternate) in Eb. injection Ea as <-. injection Eb as Eb. now apply (@text_injective alternate).
Qed.

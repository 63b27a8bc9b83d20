(** Proofs about the [Debug] texts of the types of the library. *)
From Coq Require Import Bool List Arith ZArith String Ascii Decimal DecimalString DecimalNat DecimalZ DecimalFacts Eqdep_dec Lia.
From Verif Require Import Prelude Traits Contracts AdaptorSpec PublicProofs QueueModel QueueSpec QueueProofs BasicModel AdaptorModel ScramblerModel SliceModel IoModel PublicModel
  CodecModel EndianModel ErrorModel ErrorProofs DebugModel DebugSpec DebugProofs.
Import ListNotations.
Set Implicit Arguments.
Local Open Scope string_scope.

(** ** Words *)

Definition wordb (s : string) : bool := negb (s =? "") && forallb plain (list_ascii_of_string s).
Lemma wordb_word : forall s, wordb s = true -> is_word s.
Proof. intros s H. apply andb_prop in H. destruct H as [H1 H2]. split; [|exact H2]. intros ->. discriminate. Qed.

Ltac word := apply wordb_word; reflexivity.

Lemma plain_uint : forall d, forallb plain (list_ascii_of_string (NilEmpty.string_of_uint d)) = true.
Proof. induction d; cbn [NilEmpty.string_of_uint list_ascii_of_string forallb]; [reflexivity|..]; rewrite IHd; reflexivity. Qed.

Lemma uint_inj : forall d d', NilEmpty.string_of_uint d = NilEmpty.string_of_uint d' -> d = d'.
Proof. intros d d' H. apply (f_equal NilEmpty.uint_of_string) in H. rewrite !NilEmpty.usu in H. now injection H. Qed.

Lemma to_uint_nonnil : forall n, Nat.to_uint n <> Nil.
Proof. intros n H. pose proof (DecimalNat.Unsigned.of_to n) as E. rewrite H in E. cbn in E. subst n. discriminate H. Qed.

Lemma number_word : forall n, is_word (NilEmpty.string_of_uint (Nat.to_uint n)).
Proof.
  intros n. split; [|apply plain_uint]. intros H. apply (@to_uint_nonnil n). destruct (Nat.to_uint n); [reflexivity|discriminate..].
Qed.

Lemma number_inj : forall n m, t_number n = t_number m -> n = m.
Proof. intros n m H. injection H as H. apply uint_inj in H. now apply DecimalNat.Unsigned.to_uint_inj. Qed.

Lemma integer_word : forall z, is_word (NilEmpty.string_of_int (Z.to_int z)).
Proof.
  intros z. assert (G : forall p, Pos.to_uint p <> Nil) by (intros p E; now destruct (DecimalPos.Unsigned.to_uint_nonnil p)).
  destruct z as [|p|p]; cbn [Z.to_int NilEmpty.string_of_int].
  - word.
  - split; [|apply plain_uint]. intros H. apply (G p). destruct (Pos.to_uint p); [reflexivity|discriminate..].
  - split; [discriminate|]. cbn [list_ascii_of_string forallb]. rewrite plain_uint. reflexivity.
Qed.

Lemma integer_inj : forall a b, t_integer a = t_integer b -> a = b.
Proof.
  intros a b H. injection H as H. apply (f_equal NilEmpty.int_of_string) in H. rewrite !NilEmpty.isi in H. injection H as H.
  now apply DecimalZ.to_int_inj.
Qed.

(** ** The standard types *)

Lemma word_part : forall s, is_word s -> part_writes (debug_word s) (Word s).
Proof. intros s H. split; [exact H|]. intros [|]; reflexivity. Qed.
Lemma unit_part : part_writes (debug_unit tt) Unit.
Proof. split; [exact I|]. intros [|]; reflexivity. Qed.

Lemma struct_part : forall name fs ts, is_word name -> Forall2 field_writes fs ts -> ts <> [] ->
  part_writes (debug_struct name fs) (Struct name ts).
Proof.
  intros name fs ts Hn H Hts. split; [|now apply struct_writes]. apply readable_struct. split; [exact Hn|]. split; [exact Hts|].
  clear Hts. induction H as [|d p fs ts (E & H1 & H2 & _) H IH]; constructor; [now split|exact IH].
Qed.
Lemma parts_readable : forall ds ts, Forall2 part_writes ds ts -> Forall readable ts.
Proof. induction 1 as [|d t ds ts [H1 _] H IH]; constructor; assumption. Qed.
Lemma tuple_part : forall name ds ts, is_word name -> Forall2 part_writes ds ts -> ts <> [] -> part_writes (debug_tuple name ds) (Tuple name ts).
Proof.
  intros name ds ts Hn H Hts. split; [|apply tuple_writes; try assumption; left; apply Hn]. apply readable_tuple.
  split; [now left|exact (parts_readable H)].
Qed.
Lemma anon_part : forall ds ts, Forall2 part_writes ds ts -> 2 <= List.length ts -> part_writes (debug_tuple "" ds) (Tuple "" ts).
Proof.
  intros ds ts H Hts. split; [|apply tuple_writes; [exact H|destruct ts; [cbn in Hts; lia|discriminate]|now right]]. apply readable_tuple.
  split; [now right|exact (parts_readable H)].
Qed.
Lemma list_part : forall ds ts, Forall2 part_writes ds ts -> part_writes (debug_list ds) (Listing ts).
Proof. intros ds ts H. split; [|now apply list_writes]. apply readable_listing. exact (parts_readable H). Qed.

Lemma field_intro : forall n d t, is_word n -> part_writes d t -> field_writes (n, d) (n, t).
Proof. intros n d t Hn [H1 H2]. repeat split; try assumption; apply Hn. Qed.

Ltac fields := apply struct_part; [word| |discriminate]; repeat (apply Forall2_cons; [apply field_intro; [word|]|]); [..|apply Forall2_nil].
Ltac parts := apply tuple_part; [word| |discriminate]; repeat (apply Forall2_cons); [..|apply Forall2_nil].

Lemma number_part : forall n, part_writes (debug_usize n) (t_number n).
Proof. intros n. apply word_part, number_word. Qed.
Lemma bool_part : forall b, part_writes (debug_bool b) (t_bool b).
Proof. intros [|]; apply word_part; word. Qed.
Lemma slice_part : forall T (item : T -> debug) t l, (forall x, part_writes (item x) (t x)) -> part_writes (debug_slice item l) (t_list t l).
Proof. intros T item t l H. apply list_part. induction l as [|x l IH]; constructor; [apply H|exact IH]. Qed.
Lemma option_part : forall A (a : A -> debug) t o, (forall x, part_writes (a x) (t x)) -> part_writes (debug_option a o) (t_option t o).
Proof. intros A a t [x|] H; [|apply word_part; word]. parts. apply H. Qed.
Lemma result_part : forall A B (a : A -> debug) (b : B -> debug) ta tb r, (forall x, part_writes (a x) (ta x)) -> (forall x, part_writes (b x) (tb x)) ->
  part_writes (debug_result a b r) (t_result ta tb r).
Proof. intros A B a b ta tb [x|y] Ha Hb; parts; auto. Qed.
Lemma sizes_part : forall o, part_writes (debug_option (debug_pair (debug_slice debug_usize) debug_usize) o) (t_sizes o).
Proof.
  intros o. apply option_part. intros [l n]. unfold debug_pair. apply anon_part; [|cbn; lia]. cbn [fst snd].
  repeat apply Forall2_cons; [apply slice_part, number_part|apply number_part|apply Forall2_nil].
Qed.
Lemma yielder_part : forall y, part_writes (debug_yielder y) (t_yielder (y_pattern y) (y_index y)).
Proof. intros y. unfold debug_yielder, t_yielder. fields; [apply slice_part, bool_part|apply number_part]. Qed.

(** What the trees tell. *)
Lemma bool_inj : forall a b, t_bool a = t_bool b -> a = b.
Proof. intros [|] [|]; reflexivity || discriminate. Qed.
Lemma list_inj : forall A (t : A -> tree), (forall x y, t x = t y -> x = y) -> forall l l', t_list t l = t_list t l' -> l = l'.
Proof.
  intros A t H l l' E. injection E as E. revert l' E. induction l as [|x l IH]; intros [|y l'] E; try discriminate; [reflexivity|].
  cbn in E. injection E as E1 E2. now rewrite (H _ _ E1), (IH _ E2).
Qed.
Lemma option_inj : forall A (t : A -> tree), (forall x y, t x = t y -> x = y) -> forall o o', t_option t o = t_option t o' -> o = o'.
Proof. intros A t H [x|] [y|] E; try discriminate; [|reflexivity]. injection E as E. now rewrite (H _ _ E). Qed.
Lemma result_inj : forall A B (ta : A -> tree) (tb : B -> tree), (forall x y, ta x = ta y -> x = y) -> (forall x y, tb x = tb y -> x = y) ->
  forall r r', t_result ta tb r = t_result ta tb r' -> r = r'.
Proof. intros A B ta tb Ha Hb [x|x] [y|y] E; try discriminate; injection E as E; f_equal; auto. Qed.
Lemma struct_eq : forall n fs fs', Struct n fs = Struct n fs' -> fs = fs'.
Proof. intros n fs fs' H. now injection H. Qed.
Lemma tuple_eq : forall n ps ps', Tuple n ps = Tuple n ps' -> ps = ps'.
Proof. intros n ps ps' H. now injection H. Qed.
Lemma field_eq : forall (n : string) (a b : tree) l l', (n, a) :: l = (n, b) :: l' -> a = b /\ l = l'.
Proof. intros n a b l l' H. inversion H. now split. Qed.
Lemma part_eq : forall (a b : tree) l l', a :: l = b :: l' -> a = b /\ l = l'.
Proof. intros a b l l' H. inversion H. now split. Qed.
Ltac by_fields E := apply struct_eq in E; repeat (apply field_eq in E; let H := fresh "E" in destruct E as [H E]).
Ltac by_parts E := apply tuple_eq in E; repeat (apply part_eq in E; let H := fresh "E" in destruct E as [H E]).

Lemma sizes_inj : forall o o', t_sizes o = t_sizes o' -> o = o'.
Proof.
  intros o o' E. apply option_inj in E; [exact E|]. intros [l n] [m k] H. by_parts H. cbn [fst snd] in *.
  f_equal; [exact (@list_inj _ _ number_inj _ _ E0)|now apply number_inj].
Qed.
Lemma yielder_inj : forall y y', t_yielder (y_pattern y) (y_index y) = t_yielder (y_pattern y') (y_index y') -> y = y'.
Proof. intros [p i] [q j] E. by_fields E. cbn [y_pattern y_index] in *. f_equal; [exact (@list_inj _ _ bool_inj _ _ E0)|now apply number_inj]. Qed.

Definition y_pair (y : yielder) : list bool * nat := (y_pattern y, y_index y).
Lemma yielders_part : forall o, part_writes (debug_option debug_yielder o) (t_option (fun y => t_yielder (fst y) (snd y)) (option_map y_pair o)).
Proof. intros [y|]; [|apply word_part; word]. cbn [option_map t_option debug_option]. parts. apply yielder_part. Qed.
Lemma yielders_inj : forall o o', t_option (fun y => t_yielder (fst y) (snd y)) (option_map y_pair o) = t_option (fun y => t_yielder (fst y) (snd y)) (option_map y_pair o') -> o = o'.
Proof. intros [y|] [y'|] E; try discriminate; [|reflexivity]. cbn [option_map t_option] in E. by_parts E. f_equal. now apply yielder_inj. Qed.

(** ** Queues *)

Lemma fixed_part : forall T (item : T -> debug) t (q : fixed T) c items, (forall x, part_writes (item x) (t x)) ->
  fixed_debug q = Ret (c, List.length items, items) -> part_writes (debug_fixed item q) (t_fixed t c items).
Proof.
  intros T item t q c items H E. unfold fixed_debug in E. destruct (fixed_debug_data q) as [d| |] eqn:Ed; try discriminate. cbn [bind] in E. injection E as E1 E2 E3. subst c d.
  unfold debug_fixed, t_fixed. rewrite E2. fields; [apply number_part|apply number_part|].
  pose proof (@slice_part _ _ _ items H) as [G1 G2]. split; [exact G1|]. intros alternate. rewrite Ed. cbn [bind]. apply G2.
Qed.
Lemma static_part : forall T N (item : T -> debug) t (q : static T) items, (forall x, part_writes (item x) (t x)) ->
  static_debug N q = Ret (List.length items, items) ->
  part_writes (debug_static N item q) (Struct "Static" [("len", t_number (List.length items)); ("data", t_list t items)]).
Proof.
  intros T N item t q items H E. unfold static_debug in E. destruct (static_debug_data N q) as [d| |] eqn:Ed; try discriminate. cbn [bind] in E. injection E as E2 E3. subst d.
  unfold debug_static. rewrite E2. fields; [apply number_part|].
  pose proof (@slice_part _ _ _ items H) as [G1 G2]. split; [exact G1|]. intros alternate. rewrite Ed. cbn [bind]. apply G2.
Qed.
Lemma fixed_tree_inj : forall T (t : T -> tree), (forall x y, t x = t y -> x = y) -> forall c c' l l', t_fixed t c l = t_fixed t c' l' -> c = c' /\ l = l'.
Proof. intros T t H c c' l l' E. by_fields E. split; [now apply number_inj|exact (list_inj H E2)]. Qed.

(** ** The types of ufotofu *)

(** A [Debug] that describes its values by trees, and that the trees tell the values apart. *)
Definition part_of {A} (show : A -> debug) (d : A -> tree) : Prop := forall a, part_writes (show a) (d a).
Definition injective {A} (d : A -> tree) : Prop := forall a b, d a = d b -> a = b.

Section Parts.
  Context {T F E : Type} {item : T -> debug} {fin : F -> debug} {err : E -> debug} {t_item : T -> tree} {t_fin : F -> tree} {t_err : E -> tree}.
  Hypothesis HI : part_of item t_item.
  Hypothesis HF : part_of fin t_fin.
  Hypothesis HE : part_of err t_err.

  Lemma empty_part : forall s, part_writes (debug_empty fin s) (Struct "Empty" [("fin", t_option t_fin s)]).
  Proof. intros s. unfold debug_empty. fields. now apply option_part. Qed.
  Lemma from_slice_part : forall s, part_writes (debug_from_slice item s) (t_from_slice "FromSlice" t_item (fs_slice s) (fs_offset s)).
  Proof. intros s. unfold debug_from_slice, t_from_slice. parts; [now apply slice_part|apply number_part]. Qed.
  Lemma from_boxed_slice_part : forall s, part_writes (debug_from_boxed_slice item s) (t_from_slice "FromBoxedSlice" t_item (fs_slice s) (fs_offset s)).
  Proof. intros s. unfold debug_from_boxed_slice, t_from_slice. parts; [now apply slice_part|apply number_part]. Qed.
  Lemma into_vec_part : forall s, part_writes (debug_into_vec item s) (t_into_vec t_item (iv_v s) (iv_consumed s)).
  Proof. intros s. unfold debug_into_vec, t_into_vec. fields; [now apply slice_part|apply number_part]. Qed.
  Lemma into_slice_part : forall s, part_writes (debug_into_slice item s) (t_from_slice "IntoSlice" t_item (is_slice s) (is_offset s)).
  Proof. intros s. unfold debug_into_slice, t_from_slice. parts; [now apply slice_part|apply number_part]. Qed.

  Definition d_test_producer (s : nested_tp_state T F E) : tree :=
    t_test_producer t_item t_fin t_err (fs_slice (inv_inner (ntp_inner s))) (fs_offset (inv_inner (ntp_inner s))) (ntp_last s) (ntp_sizes s)
      (option_map y_pair (ntp_yielder s)).
  Lemma test_producer_part : forall s, part_writes (debug_test_producer item fin err s) (d_test_producer s).
  Proof.
    intros s. unfold debug_test_producer, d_test_producer, t_test_producer.
    fields; [apply from_boxed_slice_part|apply option_part; intros r; now apply result_part|apply sizes_part|apply yielders_part].
  Qed.
  Definition d_test_consumer (s : nested_tc_state T F E) : tree :=
    t_test_consumer t_item t_fin t_err (iv_v (inv_inner (ntc_inner s))) (iv_consumed (inv_inner (ntc_inner s))) (ntc_fin s) (ntc_error s)
      (ntc_left s) (ntc_sizes s) (option_map y_pair (ntc_yielder s)).
  Lemma test_consumer_part : forall s, part_writes (debug_test_consumer item fin err s) (d_test_consumer s).
  Proof.
    intros s. unfold debug_test_consumer, d_test_consumer, t_test_consumer.
    fields; [apply into_vec_part|now apply option_part|now apply option_part|apply number_part|apply sizes_part|apply yielders_part].
  Qed.
End Parts.

(** ** What the texts tell *)

Definition clearly {A} (show : A -> debug) : Prop := clear any eq show.

Lemma clear_intro : forall A (P : A -> Prop) (R : A -> A -> Prop) show d, (forall a, P a -> part_writes (show a) (d a)) ->
  (forall a b, P a -> P b -> d a = d b -> R a b) -> clear P R show.
Proof. intros A P R show d H1 H2. exists d. split; [exact H1|exact H2]. Qed.

Lemma clearly_elim : forall A (show : A -> debug), clearly show -> exists d, part_of show d /\ injective d.
Proof. intros A show (d & H1 & H2). exists d. split; [intros a; exact (H1 a I)|intros a b; exact (H2 a b I I)]. Qed.

Lemma option_clear : forall A (a : A -> debug), clearly a -> clearly (debug_option a).
Proof. intros A a (d & H1 & H2)%clearly_elim. apply clear_intro with (d := t_option d); [intros o _; now apply option_part|intros o o' _ _; now apply option_inj]. Qed.

Lemma number_clear : clearly debug_usize.
Proof. apply clear_intro with (d := t_number); [intros n _; apply number_part|intros n m _ _; apply number_inj]. Qed.
Lemma bool_clear : clearly debug_bool.
Proof. apply clear_intro with (d := t_bool); [intros n _; apply bool_part|intros n m _ _; apply bool_inj]. Qed.
Lemma unit_clear : clearly debug_unit.
Proof. apply clear_intro with (d := fun _ => Unit); [intros [] _; apply unit_part|intros [] []; reflexivity]. Qed.
Lemma num_ext : forall i (a b : num i), num_val a = num_val b -> a = b.
Proof.
  intros i [a Ha] [b Hb] H. cbn in H. subst b. f_equal. apply UIP_dec, bool_dec.
Qed.
Lemma num_clear : forall i, clearly (@debug_num i).
Proof.
  intros i. apply clear_intro with (d := fun v => t_integer (num_val v)).
  - intros v _. apply word_part, integer_word.
  - intros a b _ _ H. apply num_ext. now apply integer_inj.
Qed.
Lemma slice_clear : forall T (item : T -> debug), clearly item -> clearly (debug_slice item).
Proof. intros T item (d & H1 & H2)%clearly_elim. apply clear_intro with (d := t_list d); [intros l _; now apply slice_part|intros l l' _ _; now apply list_inj]. Qed.
Lemma yielder_clear : clearly debug_yielder.
Proof. apply clear_intro with (d := fun y => t_yielder (y_pattern y) (y_index y)); [intros y _; apply yielder_part|intros y y' _ _; apply yielder_inj]. Qed.

(** Operations. *)
Lemma pscr_op_part : forall o, part_writes (debug_pscr_op o) (t_pscr_op o).
Proof. intros [|n|]; [apply word_part; word|unfold debug_pscr_op, t_pscr_op; parts; apply number_part|apply word_part; word]. Qed.
Lemma pscr_op_inj : forall o o', t_pscr_op o = t_pscr_op o' -> o = o'.
Proof. intros [|n|] [|m|] H; try discriminate; try reflexivity. unfold t_pscr_op in H. by_parts H. f_equal. now apply number_inj. Qed.
Lemma cscr_op_part : forall o, part_writes (debug_cscr_op o) (t_cscr_op o).
Proof. intros [|n|]; [apply word_part; word|unfold debug_cscr_op, t_cscr_op; parts; apply number_part|apply word_part; word]. Qed.
Lemma cscr_op_inj : forall o o', t_cscr_op o = t_cscr_op o' -> o = o'.
Proof. intros [|n|] [|m|] H; try discriminate; try reflexivity. unfold t_cscr_op in H. by_parts H. f_equal. now apply number_inj. Qed.

Section Clear.
  Context {T F E : Type} {item : T -> debug} {fin : F -> debug} {err : E -> debug}.
  Hypothesis CI : clearly item.
  Hypothesis CF : clearly fin.
  Hypothesis CE : clearly err.

  Lemma empty_clear : clearly (debug_empty fin).
  Proof.
    destruct (clearly_elim CF) as (d & H1 & H2). apply clear_intro with (d := fun s => Struct "Empty" [("fin", t_option d s)]).
    - intros s _. now apply empty_part.
    - intros a b _ _ H. by_fields H. exact (@option_inj _ _ H2 _ _ E0).
  Qed.
  Lemma from_slice_clear : clearly (debug_from_slice item).
  Proof.
    destruct (clearly_elim CI) as (d & H1 & H2). apply clear_intro with (d := fun s => t_from_slice "FromSlice" d (fs_slice s) (fs_offset s)).
    - intros s _. now apply from_slice_part.
    - intros [l i] [m j] _ _ H. by_parts H. cbn in E0, E1. f_equal; [exact (list_inj H2 E0)|exact (@number_inj _ _ E1)].
  Qed.
  Lemma from_boxed_slice_clear : clearly (debug_from_boxed_slice item).
  Proof.
    destruct (clearly_elim CI) as (d & H1 & H2). apply clear_intro with (d := fun s => t_from_slice "FromBoxedSlice" d (fs_slice s) (fs_offset s)).
    - intros s _. now apply from_boxed_slice_part.
    - intros [l i] [m j] _ _ H. by_parts H. cbn in E0, E1. f_equal; [exact (list_inj H2 E0)|exact (@number_inj _ _ E1)].
  Qed.
  Lemma into_vec_clear : clearly (debug_into_vec item).
  Proof.
    destruct (clearly_elim CI) as (d & H1 & H2). apply clear_intro with (d := fun s => t_into_vec d (iv_v s) (iv_consumed s)).
    - intros s _. now apply into_vec_part.
    - intros [l i] [m j] _ _ H. by_fields H. cbn in E0, E1. f_equal; [exact (list_inj H2 E0)|exact (@number_inj _ _ E1)].
  Qed.
  Lemma into_slice_clear : clearly (debug_into_slice item).
  Proof.
    destruct (clearly_elim CI) as (d & H1 & H2). apply clear_intro with (d := fun s => t_from_slice "IntoSlice" d (is_slice s) (is_offset s)).
    - intros s _. now apply into_slice_part.
    - intros [l i] [m j] _ _ H. by_parts H. cbn in E0, E1. f_equal; [exact (list_inj H2 E0)|exact (@number_inj _ _ E1)].
  Qed.

  (** Everything but the checker that the test producer contains. *)
  Lemma test_producer_clear : clear any
    (fun a b => inv_inner (ntp_inner a) = inv_inner (ntp_inner b) /\ ntp_last a = ntp_last b /\ ntp_sizes a = ntp_sizes b /\ ntp_yielder a = ntp_yielder b)
    (debug_test_producer item fin err).
  Proof.
    destruct (clearly_elim CI) as (d & H1 & H2), (clearly_elim CF) as (df & F1 & F2), (clearly_elim CE) as (de & G1 & G2).
    apply clear_intro with (d := d_test_producer (t_item := d) (t_fin := df) (t_err := de)).
    - intros s _. now apply test_producer_part.
    - intros a b _ _ H. by_fields H. by_parts E0. repeat split.
      + destruct (inv_inner (ntp_inner a)), (inv_inner (ntp_inner b)). cbn in E4, E5. f_equal; [exact (list_inj H2 E4)|exact (@number_inj _ _ E5)].
      + refine (@option_inj _ _ _ _ _ E1). intros x y. now apply result_inj.
      + exact (@sizes_inj _ _ E2).
      + exact (@yielders_inj _ _ E3).
  Qed.
  Lemma test_consumer_clear : clear any
    (fun a b => inv_inner (ntc_inner a) = inv_inner (ntc_inner b) /\ ntc_fin a = ntc_fin b /\ ntc_error a = ntc_error b /\ ntc_left a = ntc_left b /\
      ntc_sizes a = ntc_sizes b /\ ntc_yielder a = ntc_yielder b)
    (debug_test_consumer item fin err).
  Proof.
    destruct (clearly_elim CI) as (d & H1 & H2), (clearly_elim CF) as (df & F1 & F2), (clearly_elim CE) as (de & G1 & G2).
    apply clear_intro with (d := d_test_consumer (t_item := d) (t_fin := df) (t_err := de)).
    - intros s _. now apply test_consumer_part.
    - intros a b _ _ H. by_fields H. by_fields E0. repeat split.
      + destruct (inv_inner (ntc_inner a)), (inv_inner (ntc_inner b)). cbn in E6, E7. f_equal; [exact (list_inj H2 E6)|exact (@number_inj _ _ E7)].
      + exact (@option_inj _ _ F2 _ _ E1).
      + exact (@option_inj _ _ G2 _ _ E2).
      + exact (@number_inj _ _ E3).
      + exact (@sizes_inj _ _ E4).
      + exact (@yielders_inj _ _ E5).
  Qed.

  (** Queues. *)
  Definition listed (q : fixed T) : Prop := exists c items, fixed_debug q = Ret (c, List.length items, items).
  Definition items_of (q : fixed T) : list T := match fixed_debug_data q with Ret d => d | _ => [] end.
  Lemma listed_debug : forall q, listed q -> fixed_debug q = Ret (fixed_capacity q, List.length (items_of q), items_of q).
  Proof.
    intros q (c & items & E0). unfold items_of, fixed_debug in *. destruct (fixed_debug_data q); try discriminate. cbn [bind] in *.
    injection E0 as E1 E2 E3. subst. now rewrite E2.
  Qed.
  Lemma fixed_clear : clear listed (fun a b => fixed_debug a = fixed_debug b) (debug_fixed item).
  Proof.
    destruct (clearly_elim CI) as (d & H1 & H2). apply clear_intro with (d := fun q => t_fixed d (fixed_capacity q) (items_of q)).
    - intros q Hq. apply fixed_part; [exact H1|]. now apply listed_debug.
    - intros a b Ha Hb H. apply fixed_tree_inj in H; [|exact H2]. destruct H as [E1 E2]. rewrite (listed_debug Ha), (listed_debug Hb). now rewrite E1, E2.
  Qed.

  (** Scramblers. *)
  Context {S : Type} {P : S -> Prop} {R : S -> S -> Prop} {inner : S -> debug}.
  Hypothesis CS : clear P R inner.

  Lemma pscr_clear : clear (fun s : pscr S T F E => P (ps_inner s) /\ listed (ps_buffer s))
    (fun a b => R (ps_inner a) (ps_inner b) /\ fixed_debug (ps_buffer a) = fixed_debug (ps_buffer b) /\ ps_last a = ps_last b /\
      ps_operations a = ps_operations b /\ ps_index a = ps_index b)
    (debug_pscr item fin err inner).
  Proof.
    destruct (clearly_elim CF) as (df & F1 & F2), (clearly_elim CE) as (de & G1 & G2), fixed_clear as (dq & Q1 & Q2), CS as (ds & S1 & S2).
    apply clear_intro with (d := fun s : pscr S T F E => Struct "BulkScrambler"
      [("inner", ds (ps_inner s)); ("buffer", dq (ps_buffer s)); ("last", t_option (t_result df de) (ps_last s));
       ("operations", t_list t_pscr_op (ps_operations s)); ("operations_index", t_number (ps_index s))]).
    - intros s [Hs Hq]. unfold debug_pscr. fields; [now apply S1|now apply Q1|apply option_part; intros r; now apply result_part|apply slice_part, pscr_op_part|apply number_part].
    - intros a b [A1 A2] [B1 B2] H. by_fields H. repeat split; auto.
      + refine (@option_inj _ _ _ _ _ E2). intros x y. now apply result_inj.
      + exact (@list_inj _ _ pscr_op_inj _ _ E3).
      + exact (@number_inj _ _ E4).
  Qed.
  Lemma cscr_clear : clear (fun s : cscr S T => P (cs_inner s) /\ listed (cs_buffer s))
    (fun a b => R (cs_inner a) (cs_inner b) /\ fixed_debug (cs_buffer a) = fixed_debug (cs_buffer b) /\
      cs_operations a = cs_operations b /\ cs_index a = cs_index b)
    (debug_cscr item inner).
  Proof.
    destruct fixed_clear as (dq & Q1 & Q2), CS as (ds & S1 & S2).
    apply clear_intro with (d := fun s : cscr S T => Struct "BulkScrambler"
      [("inner", ds (cs_inner s)); ("buffer", dq (cs_buffer s)); ("operations", t_list t_cscr_op (cs_operations s)); ("operations_index", t_number (cs_index s))]).
    - intros s [Hs Hq]. unfold debug_cscr. fields; [now apply S1|now apply Q1|apply slice_part, cscr_op_part|apply number_part].
    - intros a b [A1 A2] [B1 B2] H. by_fields H. repeat split; auto.
      + exact (@list_inj _ _ cscr_op_inj _ _ E2).
      + exact (@number_inj _ _ E3).
  Qed.

  (** The other adaptors. *)
  Lemma limit_clear : clear (fun s => P (lim_inner s)) (fun a b => R (lim_inner a) (lim_inner b) /\ lim_remaining a = lim_remaining b) (debug_limit inner).
  Proof.
    destruct CS as (ds & S1 & S2). apply clear_intro with (d := fun s => t_limit (ds (lim_inner s)) (lim_remaining s)).
    - intros s Hs. unfold debug_limit, t_limit. fields; [now apply S1|apply number_part].
    - intros a b A B H. by_fields H. split; [auto|exact (@number_inj _ _ E1)].
  Qed.
  Lemma map_item_clear : forall W, clear (fun s : map_item S W => P (mi_inner s)) (fun a b => R (mi_inner a) (mi_inner b)) (debug_map_item inner).
  Proof.
    intros W. destruct CS as (ds & S1 & S2). apply clear_intro with (d := fun s => t_map "MapItem" (ds (mi_inner s))).
    - intros s Hs. unfold debug_map_item, t_map. fields. now apply S1.
    - intros a b A B H. by_fields H. auto.
  Qed.
  Lemma map_final_clear : forall G, clear (fun s : with_fun S G => P (wf_inner s)) (fun a b => R (wf_inner a) (wf_inner b)) (debug_map_final inner).
  Proof.
    intros W. destruct CS as (ds & S1 & S2). apply clear_intro with (d := fun s => t_map "MapFinal" (ds (wf_inner s))).
    - intros s Hs. unfold debug_map_final, t_map. fields. now apply S1.
    - intros a b A B H. by_fields H. auto.
  Qed.
  Lemma map_error_clear : forall G, clear (fun s : with_fun S G => P (wf_inner s)) (fun a b => R (wf_inner a) (wf_inner b)) (debug_map_error inner).
  Proof.
    intros W. destruct CS as (ds & S1 & S2). apply clear_intro with (d := fun s => t_map "MapError" (ds (wf_inner s))).
    - intros s Hs. unfold debug_map_error, t_map. fields. now apply S1.
    - intros a b A B H. by_fields H. auto.
  Qed.
  Lemma public_clear : clear (fun s => P (inv_inner s)) (fun a b => R (inv_inner a) (inv_inner b)) (debug_public inner).
  Proof.
    destruct CS as (ds & S1 & S2). apply clear_intro with (d := fun s => ds (inv_inner s)); [intros s Hs; exact (S1 _ Hs)|auto].
  Qed.

  (** Readers and writers. *)
  Lemma buf_reader_clear : clear P R (debug_buf_reader inner).
  Proof.
    destruct CS as (ds & S1 & S2). apply clear_intro with (d := fun s => Tuple "BufReaderToBulkProducer" [ds s]).
    - intros s Hs. unfold debug_buf_reader. parts. now apply S1.
    - intros a b A B H. by_parts H. auto.
  Qed.
  Context {Q : Type} {PQ : Q -> Prop} {RQ : Q -> Q -> Prop} {queue : Q -> debug}.
  Hypothesis CQ : clear PQ RQ queue.
  Lemma reader_clear : clear (fun s => P (rs_reader s) /\ PQ (rs_queue s)) (fun a b => R (rs_reader a) (rs_reader b) /\ RQ (rs_queue a) (rs_queue b))
    (debug_reader inner queue).
  Proof.
    destruct CS as (ds & S1 & S2), CQ as (dq & Q1 & Q2). apply clear_intro with (d := fun s => Struct "ReaderToBulkProducer" [("reader", ds (rs_reader s)); ("queue", dq (rs_queue s))]).
    - intros s [Hs Hq]. unfold debug_reader. fields; [now apply S1|now apply Q1].
    - intros a b [A1 A2] [B1 B2] H. by_fields H. auto.
  Qed.
  Lemma writer_clear : clear (fun s => P (ws_writer s) /\ PQ (ws_queue s)) (fun a b => R (ws_writer a) (ws_writer b) /\ RQ (ws_queue a) (ws_queue b))
    (debug_writer inner queue).
  Proof.
    destruct CS as (ds & S1 & S2), CQ as (dq & Q1 & Q2). apply clear_intro with (d := fun s => Struct "WriterToBulkConsumer" [("writer", ds (ws_writer s)); ("queue", dq (ws_queue s))]).
    - intros s [Hs Hq]. unfold debug_writer. fields; [now apply S1|now apply Q1].
    - intros a b [A1 A2] [B1 B2] H. by_fields H. auto.
  Qed.
End Clear.

(** ** Errors, pairs, integers *)
Section ClearErrors.
  Context {A B C : Type} {a : A -> debug} {b : B -> debug} {c : C -> debug}.
  Hypothesis CA : clearly a.
  Hypothesis CB : clearly b.
  Hypothesis CC : clearly c.

  Lemma pipe_error_clear : clearly (debug_pipe_error a b).
  Proof.
    destruct (clearly_elim CA) as (da & A1 & A2), (clearly_elim CB) as (db & B1 & B2).
    apply clear_intro with (d := fun e => match e with PipeProducer x => Tuple "Producer" [da x] | PipeConsumer x => Tuple "Consumer" [db x] end).
    - intros [x|x] _; parts; auto.
    - intros [x|x] [y|y] _ _ H; try discriminate; by_parts H; f_equal; auto.
  Qed.
  Lemma cale_clear : clearly (debug_cale a).
  Proof.
    destruct (clearly_elim CA) as (da & A1 & A2).
    apply clear_intro with (d := fun e => Struct "ConsumeAtLeastError" [("count", t_number (cale_count e)); ("reason", da (cale_reason e))]).
    - intros e _. unfold debug_cale. fields; [apply number_part|apply A1].
    - intros [n x] [m y] _ _ H. by_fields H. cbn in E, E0. f_equal; [now apply number_inj|auto].
  Qed.
  Lemma pale_clear : clearly (debug_pale a b).
  Proof.
    destruct (clearly_elim CA) as (da & A1 & A2), (clearly_elim CB) as (db & B1 & B2).
    apply clear_intro with (d := fun e => Struct "ProduceAtLeastError" [("count", t_number (pale_count e));
      ("reason", match pale_reason e with inl x => Tuple "Left" [da x] | inr y => Tuple "Right" [db y] end)]).
    - intros [n [x|y]] _; unfold debug_pale; fields; try apply number_part; cbn; parts; auto.
    - intros [n x] [m y] _ _ H. by_fields H. cbn in E, E0. f_equal; [now apply number_inj|].
      destruct x, y; try discriminate; by_parts E0; f_equal; auto.
  Qed.
  Lemma decode_error_clear : clearly (debug_decode_error a b c).
  Proof.
    destruct (clearly_elim CA) as (da & A1 & A2), (clearly_elim CB) as (db & B1 & B2), (clearly_elim CC) as (dc & C1 & C2).
    apply clear_intro with (d := fun e => match e with UnexpectedEndOfInput x => Tuple "UnexpectedEndOfInput" [da x]
      | Producer x => Tuple "Producer" [db x] | Other x => Tuple "Other" [dc x] end).
    - intros [x|x|x] _; parts; auto.
    - intros [x|x|x] [y|y|y] _ _ H; try discriminate; by_parts H; f_equal; auto.
  Qed.
  Lemma encoded_pair_clear : clearly (debug_encoded_pair a b).
  Proof.
    destruct (clearly_elim CA) as (da & A1 & A2), (clearly_elim CB) as (db & B1 & B2).
    apply clear_intro with (d := fun p => Struct "EncodedPair" [("actual_value", da (fst p)); ("relative_to", db (snd p))]).
    - intros p _. unfold debug_encoded_pair. fields; auto.
    - intros [x y] [x' y'] _ _ H. by_fields H. cbn in E, E0. f_equal; auto.
  Qed.
End ClearErrors.

Lemma blame_clear : clearly debug_blame.
Proof.
  apply clear_intro with (d := fun b => match b with OurFault => Word "OurFault" | TheirFault => Word "TheirFault" end).
  - intros [|] _; apply word_part; word.
  - intros [|] [|] _ _ H; try discriminate; reflexivity.
Qed.
Lemma endian_clear : forall w, clearly (debug_endian w).
Proof.
  intros w. apply clear_intro with (d := fun v => Tuple (wrapper_name w) [t_integer (num_val v)]).
  - intros v _. unfold debug_endian. apply tuple_part; [destruct w; word| |discriminate]. repeat apply Forall2_cons; [|apply Forall2_nil]. apply word_part, integer_word.
  - intros x y _ _ H. by_parts H. apply num_ext. now apply integer_inj.
Qed.

(** ** With and without the checks *)

Lemma public_p_trace : forall S T F E (P : bulk_producer S T F E) checks,
  (forall buf s, p_bulk_produce P buf s = default_bulk_produce (p_expose P) (p_consider P) buf s) ->
  forall s h s', p_trace (public_producer checks P) s h s' -> p_trace P (inv_inner s) h (inv_inner s').
Proof. intros S T F E P checks HB s h s' H. induction H as [|s o s1 r h s' HD HT IH]; [constructor|]. econstructor; [|exact IH]. exact (@public_do_conv _ _ _ _ P HB checks o s s1 r HD). Qed.
Lemma public_c_trace : forall S T F E (C : bulk_consumer S T F E) checks,
  (forall buf s, c_bulk_consume C buf s = default_bulk_consume (c_expose C) (c_write C) (c_consume_slots C) buf s) ->
  forall s h s', c_trace (public_consumer checks C) s h s' -> c_trace C (inv_inner s) h (inv_inner s').
Proof. intros S T F E C checks HB s h s' H. induction H as [|s o s1 r h s' HD HT IH]; [constructor|]. econstructor; [|exact IH]. exact (@publicc_do_conv _ _ _ _ C HB checks o s s1 r HD). Qed.
Lemma p_trace_fun : forall S T F E (P : bulk_producer S T F E) s h s1 s2, p_trace P s h s1 -> p_trace P s h s2 -> s1 = s2.
Proof. intros S T F E P s h s1 s2 H. revert s2. induction H as [|s o s1 r h s' HD HT IH]; intros s2 H2; inversion H2; subst; [reflexivity|]. apply IH. congruence. Qed.
Lemma c_trace_fun : forall S T F E (C : bulk_consumer S T F E) s h s1 s2, c_trace C s h s1 -> c_trace C s h s2 -> s1 = s2.
Proof. intros S T F E C s h s1 s2 H. revert s2. induction H as [|s o s1 r h s' HD HT IH]; intros s2 H2; inversion H2; subst; [reflexivity|]. apply IH. congruence. Qed.

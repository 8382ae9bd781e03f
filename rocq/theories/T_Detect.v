(** C93: how the serializer treats a type. *)
From Verif Require Import P_Base M_Traits M_Serial S_Serial P_Serial T_Serial S_Interchange T_Interchange M_Detect S_Detect P_Detect.
Local Open Scope nat_scope.

(** ** C93. Reading compiles exactly for the types of [readable]. *)
Theorem C93_readable : forall t, (exists u, readAs t = Some u) <-> readable t.
Proof. exact readable_iff. Qed.
Print Assumptions C93_readable.

(** ** C93. Every such type (without classes that convert to bool) can be written, and every value of it is read back from the bytes written by the class chosen for
    writing ([w]) with the class chosen for reading ([u]). *)
Theorem C93_roundtrip : forall t, readable t -> no_conversions t ->
  exists w u, writtenAs t = Some w /\ readAs t = Some u /\ complete u /\
    forall x : den u, exists y : den w, same w u y x /\ (obj u x -> forall rest, get u (dflt u) (put w y ++ rest) = Ok (x, rest)).
Proof.
  intros t R N. destruct (agree t R N) as (w & u & E1 & E2 & C & F). exists w, u. split; [exact E1|]. split; [exact E2|]. split; [exact C|].
  intros x. destruct (F x) as (y & S). exists y. split; [exact S|]. intros O rest. now apply C92_read_as.
Qed.
Print Assumptions C93_roundtrip.

(** ** C93. For every type, whatever it offers: if writing and reading both compile, the user's functions come in pairs, only numbers convert to bool, and a
    pair or tuple is not iterable, then the form that is written is the form that is read. *)
Theorem C93_any_type : forall k w r, writer_of k = Some w -> reader_of k = Some r ->
  k_writeFn k = k_readFn k -> (k_toBool k = true -> k_simple k = true) -> (k_tuple k = true -> k_begin k = false) ->
  formW w = formR r.
Proof.
  intros k w r. unfold writer_of, reader_of. cbn [classSelector writes reads].
  unfold writeCompiles, readCompiles. intros HW HR HC HB HT.
  destruct (k_writeFn k) eqn:E1; rewrite <- HC in HR; cbn in HW, HR.
  { rewrite E1 in HW. rewrite <- HC in HR. cbn in HW, HR. injection HW as <-. injection HR as <-. reflexivity. }
  destruct (k_simple k) eqn:E2; cbn in HW, HR.
  { rewrite E2 in HW, HR. cbn in HW, HR. injection HW as <-. injection HR as <-. reflexivity. }
  destruct (k_toBool k) eqn:E3; [discriminate (HB eq_refl)|]. cbn in HW.
  destruct (compactContainer k) eqn:E4; cbn in HW, HR.
  { rewrite E4 in HW, HR. cbn in HW, HR. injection HW as <-. injection HR as <-. reflexivity. }
  destruct (k_traits k) eqn:E5; cbn in HW, HR.
  { rewrite E5 in HW, HR. cbn in HW, HR. injection HW as <-. injection HR as <-. reflexivity. }
  destruct (k_tuple k) eqn:E6.
  - rewrite (HT eq_refl) in HW, HR. cbn in HW, HR.
    destruct (indexable k) eqn:E7; cbn in HW, HR; rewrite ?E6, ?E7 in HW, HR; cbn in HW, HR.
    + injection HW as <-. destruct (k_size k && k_lvalue k); [injection HR as <-|discriminate]. reflexivity.
    + injection HW as <-. injection HR as <-. reflexivity.
  - destruct (k_begin k) eqn:E8; cbn in HW, HR.
    + rewrite E8 in HW. cbn in HW. destruct (k_size k) eqn:E9; [injection HW as <-|discriminate]. cbn [formW].
      destruct (k_key k) eqn:E10, (k_mapped k) eqn:E11, (k_resizeName k) eqn:E12, (indexable k) eqn:E7; cbn in HR;
        rewrite ?E6, ?E7, ?E8, ?E10, ?E11, ?E12 in HR; cbn in HR; try discriminate;
        repeat match type of HR with context [if ?b then _ else _] => destruct b end; try discriminate; injection HR as <-; reflexivity.
    + destruct (indexable k) eqn:E7; cbn in HW, HR; rewrite ?E6, ?E7 in HW, HR; cbn in HW, HR; try discriminate.
      injection HW as <-. destruct (k_size k && k_lvalue k); [injection HR as <-|discriminate]. reflexivity.
Qed.
Print Assumptions C93_any_type.

Definition isW (w : writer) (o : option writer) : bool :=
  match o, w with Some W_Compact, W_Compact | Some W_Traited, W_Traited | Some W_Iterable, W_Iterable | Some W_Indexable, W_Indexable => true | _, _ => false end.
Definition isR (r : reader) (o : option reader) : bool :=
  match o, r with Some R_Compact, R_Compact | Some R_Traited, R_Traited | Some R_Map, R_Map | Some R_Set, R_Set | Some R_Indexable, R_Indexable => true | _, _ => false end.
Lemma isW_iff w o : In w [W_Compact; W_Traited; W_Iterable; W_Indexable] -> (o = Some w <-> isW w o = true).
Proof. intros [<-|[<-|[<-|[<-|[]]]]]; destruct o as [[]|]; cbn; split; congruence. Qed.
Lemma isR_iff r o : In r [R_Compact; R_Traited; R_Map; R_Set; R_Indexable] -> (o = Some r <-> isR r o = true).
Proof. intros [<-|[<-|[<-|[<-|[<-|[]]]]]]; destruct o as [[]|]; cbn; split; congruence. Qed.
Local Ltac cs e := destruct e eqn:?; cbn; try reflexivity; unfold indexable; repeat match goal with E : ?b = _ |- context [?b] => rewrite E; cbn end; try reflexivity.
Lemma choice_bools k : k_writeFn k = false -> k_readFn k = false -> k_simple k = false -> k_toBool k = false ->
  let c := compactContainer k in let p := negb c && negb (k_traits k) in
  isW W_Compact (writer_of k) = c /\ isR R_Compact (reader_of k) = c /\
  isW W_Traited (writer_of k) = negb c && k_traits k /\ isR R_Traited (reader_of k) = negb c && k_traits k /\
  isW W_Iterable (writer_of k) = p && (k_begin k && k_size k) /\
  isW W_Indexable (writer_of k) = p && (negb (k_begin k) && (k_bracket k && (k_size k || k_getSize k))) /\
  isR R_Map (reader_of k) = p && (k_begin k && (k_key k && (k_mapped k && k_size k))) /\
  isR R_Set (reader_of k) = p && (k_begin k && (k_key k && (negb (k_mapped k) && k_size k))) /\
  isR R_Indexable (reader_of k) = p && ((negb (k_begin k) || negb (k_key k) && negb (k_resizeName k)) && (k_bracket k && (k_size k && k_lvalue k))).
Proof.
  intros H1 H2 H3 H4 c p. unfold p, c, writer_of, reader_of. cbn [classSelector writes reads].
  rewrite H1, H2, H3, H4. cbn [orb andb]. unfold writeCompiles, readCompiles. clear H1 H2 H3 H4 p c.
  repeat (match goal with |- _ /\ _ => split end);
    (cs (compactContainer k); cs (k_traits k); cs (k_begin k); cs (k_size k); cs (k_key k); cs (k_mapped k); cs (k_resizeName k); cs (k_bracket k); cs (k_getSize k);
     cs (k_lvalue k); cs (k_tuple k)).
Qed.
(** ** C93. Which class is chosen for a type without user functions that is no number and does not convert to bool: raw memory for contiguous containers of numbers
    (with size() and data(), or with getSize() and getData()), then the traits, then iteration, then indexing. *)
Theorem C93_choice : forall k, k_writeFn k = false -> k_readFn k = false -> k_simple k = false -> k_toBool k = false ->
  let contiguous := k_bracket k = true /\ k_elem k = true /\ (k_size k = true /\ k_data k = true \/ k_getSize k = true /\ k_getData k = true) in
  let plain := ~ contiguous /\ k_traits k = false in
  (writer_of k = Some W_Compact <-> contiguous) /\ (reader_of k = Some R_Compact <-> contiguous) /\
  (writer_of k = Some W_Traited <-> ~ contiguous /\ k_traits k = true) /\ (reader_of k = Some R_Traited <-> ~ contiguous /\ k_traits k = true) /\
  (writer_of k = Some W_Iterable <-> plain /\ k_begin k = true /\ k_size k = true) /\
  (writer_of k = Some W_Indexable <-> plain /\ k_begin k = false /\ k_bracket k = true /\ (k_size k = true \/ k_getSize k = true)) /\
  (reader_of k = Some R_Map <-> plain /\ k_begin k = true /\ k_key k = true /\ k_mapped k = true /\ k_size k = true) /\
  (reader_of k = Some R_Set <-> plain /\ k_begin k = true /\ k_key k = true /\ k_mapped k = false /\ k_size k = true) /\
  (reader_of k = Some R_Indexable <->
     plain /\ (k_begin k = false \/ k_key k = false /\ k_resizeName k = false) /\ k_bracket k = true /\ k_size k = true /\ k_lvalue k = true).
Proof.
  intros k H1 H2 H3 H4 ctg plain.
  assert (C : compactContainer k = true <-> ctg).
  { unfold ctg, compactContainer. destruct (k_bracket k), (k_elem k), (k_size k), (k_data k), (k_getSize k), (k_getData k); cbn; clear; intuition discriminate. }
  unfold plain. clearbody ctg. clear plain.
  assert (C' : compactContainer k = false <-> ~ ctg) by (rewrite <- C; destruct (compactContainer k); split; congruence).
  destruct (choice_bools k H1 H2 H3 H4) as (B1 & B2 & B3 & B4 & B5 & B6 & B7 & B8 & B9).
  rewrite !isW_iff, !isR_iff by (cbn; tauto). rewrite B1, B2, B3, B4, B5, B6, B7, B8, B9.
  rewrite !andb_true_iff, !orb_true_iff, !andb_true_iff, !negb_true_iff, C, C'. tauto.
Qed.
Print Assumptions C93_choice.

(** ** C93 (finding). A type that converts to bool and is not a number (a pointer, a string literal, a class with a conversion operator, whatever else it offers) is written as a
    bool: one byte. A pointer cannot be read; a class is read by its traits, which do not fit. *)
Theorem C93_finding_to_bool :
  (forall k, k_toBool k = true -> k_simple k = false -> k_writeFn k = false -> writer_of k = Some W_Simple /\ reader_of k <> Some R_Simple) /\
  writtenAs Pointer = Some (TSimple SBool) /\ readAs Pointer = None /\
  (forall tr, writtenAs (Class true tr) = Some (TSimple SBool)) /\
  (forall l, readAs (Class true (Some l)) = readAs (Class false (Some l))) /\
  (forall v : den (TSimple SBool), put (TSimple SBool) v = [if v then 1%N else 0%N]).
Proof.
  split; [|repeat split; try reflexivity; intros []; reflexivity].
  intros k H1 H2 H3. unfold writer_of, reader_of. cbn [classSelector writes reads]. rewrite H1, H2, H3. cbn. unfold writeCompiles. cbn [writes]. rewrite H1, orb_true_r.
  split; [reflexivity|].
  repeat match goal with |- context [if ?b then Some ?x else _] => lazymatch x with R_Simple => fail | _ => destruct b end end;
    repeat match goal with |- context [if ?b then _ else _] => destruct b end; discriminate.
Qed.
Print Assumptions C93_finding_to_bool.

(** ** C93 (finding). A std::list can be written but not read (SerializeIterable.h:18 asks for decltype(T::resize)); its elements can be read into a vector instead. *)
Theorem C93_finding_list : forall a, readable a -> no_conversions a -> exists w u, writtenAs a = Some w /\ readAs a = Some u /\
  writtenAs (Lst a) = Some (TSeq None w) /\ readAs (Lst a) = None /\
  forall l : list (den u), exists l' : list (den w), sames w u l' l /\
    (obj (TSeq None u) l -> forall rest, get (TSeq None u) [] (put (TSeq None w) l' ++ rest) = Ok (l, rest)).
Proof.
  intros a R N. destruct (agree a R N) as (w & u & E1 & E2 & F). exists w, u. split; [exact E1|]. split; [exact E2|].
  split; [rewrite write_lst, E1; reflexivity|]. split; [destruct a; reflexivity|].
  intros l. destruct (fits_list w u F l) as (l' & H). exists l'. split; [exact H|]. intros O rest.
  apply (C92_read_as (TSeq None w) (TSeq None u)); [|exact (proj1 F)|exact O]. eapply S_elems; [apply L_seq|apply L_seq|exact H].
Qed.
Print Assumptions C93_finding_list.

(** * Instance: std::map<std::string, C> with class C { std::vector<std::string>; std::array<double, 3>; std::set<int>; std::deque<bool> }. *)
Definition exClass : cpp := Class false (Some [Vec Str; Arr 3 (Number (SBits 8)); SetOf (Number (SInt true 4)); Deq (Number SBool)]).
Example C93_instance : readable (MapOf Str exClass) /\ no_conversions (MapOf Str exClass) /\
  writtenAs (MapOf Str exClass) = Some (TSeq None (TPair (TCompact None (SInt false 1)) (TPair (TSeq None (TCompact None (SInt false 1)))
    (TPair (TCompact (Some 3) (SBits 8)) (TPair (TSeq None (TSimple (SInt true 4))) (TPair (TSeq None (TSimple SBool)) TUnit)))))) /\
  readAs (MapOf Str exClass) = Some (TMap (TCompact None (SInt false 1)) (TPair (TSeq None (TCompact None (SInt false 1)))
    (TPair (TCompact (Some 3) (SBits 8)) (TPair (TSet (TSimple (SInt true 4))) (TPair (TSeq None (TSimple SBool)) TUnit))))).
Proof. split; [|split; [|split; reflexivity]]; repeat constructor; discriminate. Qed.

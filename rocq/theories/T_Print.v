(** C53: exported text is faithful. *)
From Coq Require Import String Ascii ZArith QArith Lia.
From Verif Require Import Base P_Base M_Traits P_Traits M_Print S_Json S_Print P_Print P_Print2 P_Json.
Local Open Scope list_scope.
Local Open Scope nat_scope.

(** Every variable built from integers, floating point numbers, bools, texts, sequences, pairs, tuples and objects with traits is
    exported (it does not end up in the memory dump). *)
Theorem C53_total : forall (tr : nat -> option (list (text * nat))) (t : pty) (v : pval),
  hasTy tr anyKind (fun _ => True) t v -> exists s, export stream tr v = Some s.
Proof. intros tr t v H. eapply export_total; eauto. intros; eexists; reflexivity. Qed.

(** Two variables of the same type have the same text exactly if they agree in all traited parts, floating point
    numbers in six digits; texts in them must not contain the quotation mark. *)
Theorem C53_faithful : forall (tr : nat -> option (list (text * nat))) (t : pty) (v w : pval),
  hasTy tr anyKind noQuote t v -> hasTy tr anyKind noQuote t w ->
  (export stream tr v = export stream tr w <-> agree tr v w).
Proof.
  intros tr t v w Hv Hw. split.
  - intros E. destruct (export_total stream tr anyKind noQuote) with (t := t) (v := v) as (s & Es); auto.
    { intros; eexists; reflexivity. }
    pose proof Es as Es'. rewrite E in Es'.
    exact (proj1 (faithful tr t v w Hv Hw s s [] [] Es Es' eq_refl I I)).
  - apply (export_agree stream tr anyKind noQuote t); auto.
Qed.

(** The texts are even readable one after another: what follows the text of a variable of known type is
    determined, provided it does not begin with a character of numbers, "inf" or "nan". *)
Theorem C53_readable : forall (tr : nat -> option (list (text * nat))) (t : pty) (v w : pval) (s s' r r' : text),
  hasTy tr anyKind noQuote t v -> hasTy tr anyKind noQuote t w ->
  export stream tr v = Some s -> export stream tr w = Some s' ->
  (forall c q, r = c :: q \/ r' = c :: q -> ~ In c (str "+-.0123456789Eaefin")) ->
  s ++ r = s' ++ r' -> agree tr v w /\ r = r'.
Proof.
  intros tr t v w s s' r r' Hv Hw E E' N EQ.
  apply (faithful tr t v w Hv Hw s s' r r' E E' EQ).
  - destruct r as [|c q]; simpl; auto. specialize (N c q (or_introl eq_refl)). apply Bool.not_true_is_false. intros Q.
    apply N. apply existsb_exists in Q as (d & Hd & Q). apply Ascii.eqb_eq in Q. now subst d.
  - destruct r' as [|c q]; simpl; auto. specialize (N c q (or_intror eq_refl)). apply Bool.not_true_is_false. intros Q.
    apply N. apply existsb_exists in Q as (d & Hd & Q). apply Ascii.eqb_eq in Q. now subst d.
Qed.

(** If all texts and names of members consist of characters that stand for themselves in JSON and the
    variable has a JSON value (no pair whose first part is not text, no infinite number, no NaN), its text is JSON for that value. *)
Theorem C53_json : forall (tr : nat -> option (list (text * nat))) (t : pty) (v : pval) (j : jv) (s : text),
  (forall c ms nm i, tr c = Some ms -> In (nm, i) ms -> jsonPlain nm) ->
  hasTy tr anyKind jsonPlain t v -> jsonOf tr v j -> export stream tr v = Some s -> jtext j s.
Proof. intros tr t v j s N. now apply export_json. Qed.

(** The printf version writes the same text as the stream version, unless an unsigned int (or a type without
    overload: long, unsigned long) or a text with the character 0 is involved. *)
Theorem C53_stdio : forall (tr : nat -> option (list (text * nat))) (t : pty) (v : pval),
  hasTy tr (fun k => k <> K_uint /\ k <> K_long /\ k <> K_ulong) (fun s => ~ In "000"%char s) t v ->
  export stdio tr v = export stream tr v.
Proof.
  intros tr. assert (U : forall s, ~ In "000"%char s -> upto0 s = s).
  { induction s as [|c s IH]; intros H; auto. cbn [upto0]. destruct (Ascii.eqb_spec c "000"%char) as [->|].
    - exfalso. apply H. now left.
    - rewrite IH; auto. intros Q. apply H. now right. }
  assert (SEQ : forall l, (forall v : pval, In v l -> export stdio tr v = export stream tr v) ->
     map (export stdio tr) l = map (export stream tr) l) by (intros l H; now apply map_ext_in).
  assert (NTH : forall ts l (H : forall i t, nth_error ts i = Some t -> forall v, hasTy tr (fun k => k <> K_uint /\ k <> K_long /\ k <> K_ulong) (fun s => ~ In "000"%char s) t v -> export stdio tr v = export stream tr v),
     length l = length ts -> (forall i t v, nth_error ts i = Some t -> nth_error l i = Some v -> hasTy tr (fun k => k <> K_uint /\ k <> K_long /\ k <> K_ulong) (fun s => ~ In "000"%char s) t v) ->
     forall v, In v l -> export stdio tr v = export stream tr v).
  { intros ts l H L HT v Hi. apply In_nth_error in Hi. destruct Hi as (k & Ek).
    destruct (nth_error ts k) as [tk|] eqn:Et; [eauto|].
    apply nth_error_None in Et. assert (k < length l) by (apply nth_error_Some; congruence). lia. }
  induction t using pty_ind'; intros v Hv; inversion Hv; subst.
  - destruct H0 as (A & B & C). cbn [export]. rewrite sel_num. destruct k; try reflexivity; congruence.
  - reflexivity.
  - reflexivity.
  - cbn [export]. rewrite sel_text. cbn [stdio stream onText]. now rewrite U.
  - cbn [export]. rewrite SEQ; auto.
  - cbn [export]. rewrite SEQ; auto.
  - cbn [export]. rewrite IHt1, IHt2; auto.
  - cbn [export]. rewrite SEQ; [auto|]. eapply NTH; eauto.
  - cbn [export]. rewrite SEQ; [auto|]. eapply NTH; eauto.
Qed.

(** A variable of type std::vector<std::pair<std::string, Class>> where Class has the traits ("a", first
    member), ("b", third member). *)
Definition exTr (c : nat) : option (list (text * nat)) :=
  if c =? 1 then Some [(str "a", 0); (str "b", 2)] else None.
Definition exTy := TSeq true (TPair TText (TObj 1 [TNum K_int; TReal; TTup [TBool; TIdx (TNum K_ullong)]])).
Definition exVal := PSeq true [PPair (PText (str "k"))
  (PObj 1 [PNum K_int (-5); PReal (Fin (-5 # 4)); PTup [PBool false; PIdx [PNum K_ullong 1; PNum K_ullong 20]]])].
Example C53_instance :
  hasTy exTr anyKind jsonPlain exTy exVal /\ hasTy exTr anyKind noQuote exTy exVal /\
  export stream exTr exVal = Some (str "[ { ""k"": { ""a"" : -5, ""b"" : [ false, [ 1, 20 ]] }} ]") /\
  jsonOf exTr exVal (JArr [JObj [(str "k", JObj [(str "a", JNum (-5)); (str "b", JArr [JBool false; JArr [JNum 1; JNum 20]])])]]).
Proof.
  assert (G : forall P : text -> Prop, P (str "k") -> hasTy exTr anyKind P exTy exVal).
  { intros P Pk. unfold exTy, exVal. constructor. intros v [<-|[]]. constructor; [now constructor|].
    econstructor; [reflexivity| |reflexivity|discriminate|].
    - intros [|[|[|i]]] t v E1 E2; try (injection E1 as <-; injection E2 as <-); try (constructor; exact I).
      + constructor; [reflexivity|]. intros [|[|[|i]]] t v E1 E2; try discriminate; injection E1 as <-; injection E2 as <-; constructor.
        intros v [<-|[<-|[]]]; constructor; exact I.
      + destruct i; discriminate.
    - intros nm i [E|[E|[]]]; injection E as <- <-; simpl; lia. }
  splits.
  - apply G. intros c [<-|[]]. splits; [vm_compute; lia|discriminate|discriminate].
  - apply G. intros [E|[]]. discriminate.
  - vm_compute. reflexivity.
  - constructor. constructor; [|constructor]. constructor. econstructor; [reflexivity|].
    constructor; [split; [reflexivity|eexists; split; [reflexivity|constructor]]|].
    constructor; [split; [reflexivity|]|constructor].
    eexists; split; [reflexivity|]. repeat constructor.
Qed.
(** Finding: text is not escaped; different vectors of strings with quotation marks have the same text. *)
Example C53_finding_quotes :
  export stream exTr (PSeq true [PText (str "a"", ""b")]) = export stream exTr (PSeq true [PText (str "a"); PText (str "b")]).
Proof. vm_compute. reflexivity. Qed.
(** Finding: the printf version writes the letter d after every unsigned int. *)
Theorem C53_finding_unsigned : forall tr z,
  export stdio tr (PNum K_uint z) = option_map (fun s => s ++ str "d") (export stream tr (PNum K_uint z)).
Proof. reflexivity. Qed.
(** A pair whose first part is a number is not JSON: "{ 1: 2}". *)
Example C53_pair : export stream exTr (PPair (PNum K_int 1) (PNum K_int 2)) = Some (str "{ 1: 2}").
Proof. vm_compute. reflexivity. Qed.
(** Bound traits: if [tr] gives for every class the first user traits of it, and the default ones if there
    are none, then the export with bound traits is the export with these traits - at every depth. *)
Theorem C53_bound_traits : forall out dflt (tup : list (nat * list (text * nat))) (tr : nat -> option (list (text * nat))) (v : pval),
  (forall c i ms, nth_error tup i = Some (c, ms) -> (forall j c' ms', j < i -> nth_error tup j = Some (c', ms') -> c' <> c) ->
     tr c = Some ms) ->
  (forall c, (forall ms, ~ In (c, ms) tup) -> tr c = dflt c) ->
  exportBound out dflt tup v = export out tr v.
Proof.
  intros out dflt tup tr v H1 H2. apply export_ext. intros c.
  unfold boundTraits. rewrite P_Traits.select_find.
  2:{ intros a b. apply Nat.eqb_eq. }
  destruct (find (fun e => Nat.eqb c (fst e)) tup) as [[c' ms]|] eqn:Q.
  - assert (X : exists i, nth_error tup i = Some (c', ms) /\ forall j c'' ms', j < i -> nth_error tup j = Some (c'', ms') -> c'' <> c).
    { clear -Q. induction tup as [|[c1 m1] tup IH]; [discriminate|]. cbn [find fst] in Q.
      destruct (Nat.eqb_spec c c1) as [->|N].
      - injection Q as <- <-. exists 0. split; [reflexivity|]. intros; lia.
      - destruct (IH Q) as (i & Ei & Bi). exists (S i). split; auto.
        intros [|j] c'' ms' Lj Ej; [injection Ej as <- <-; auto|]. apply (Bi j c'' ms'); auto. lia. }
    destruct X as (i & Ei & Bi). apply find_some in Q. destruct Q as (_ & Q). apply Nat.eqb_eq in Q. simpl in Q. subst c'.
    symmetry. eapply H1; eauto.
  - symmetry. apply H2. intros ms Hi. pose proof (find_none _ _ Q _ Hi) as N. simpl in N. rewrite Nat.eqb_refl in N. discriminate.
Qed.
Example C53_bound_instance :
  exportBound stream exTr [(2, [(str "z", 0)]); (1, [(str "x", 1)])] exVal = Some (str "[ { ""k"": { ""x"" : -1.25 }} ]").
Proof. vm_compute. reflexivity. Qed.

Print Assumptions C53_total.
Print Assumptions C53_faithful.
Print Assumptions C53_readable.
Print Assumptions C53_json.
Print Assumptions C53_stdio.
Print Assumptions C53_finding_unsigned.
Print Assumptions C53_bound_traits.

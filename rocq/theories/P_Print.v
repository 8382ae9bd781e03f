From Coq Require Import String Ascii DecimalString DecimalZ DecimalN ZArith QArith Lia.
From Verif Require Import Base P_Base M_Traits M_Print M_Stream P_Stream S_Json P_JNum S_Print P_Text.
Local Open Scope nat_scope.
Local Open Scope list_scope.

(** * Nested induction on types *)
Section Ind.
Variable P : pty -> Prop.
Hypothesis Hn : forall k, P (TNum k).
Hypothesis Hr : P TReal.
Hypothesis Hb : P TBool.
Hypothesis Ht : P TText.
Hypothesis Hs : forall i t, P t -> P (TSeq i t).
Hypothesis Hi : forall t, P t -> P (TIdx t).
Hypothesis Hp : forall a b, P a -> P b -> P (TPair a b).
Hypothesis Htu : forall l, (forall i t, nth_error l i = Some t -> P t) -> P (TTup l).
Hypothesis Ho : forall c l, (forall i t, nth_error l i = Some t -> P t) -> P (TObj c l).
Fixpoint pty_ind' (t : pty) : P t.
Proof.
  assert (L : forall l : list pty, forall i t, nth_error l i = Some t -> P t).
  { fix F 1. intros [|a l] i u E; [destruct i; discriminate|].
    destruct i as [|i]; [injection E as <-; apply pty_ind'|exact (F l i u E)]. }
  destruct t as [k| | | |i t|t|a b|l|c l].
  - apply Hn.
  - exact Hr.
  - exact Hb.
  - exact Ht.
  - apply Hs, pty_ind'.
  - apply Hi, pty_ind'.
  - apply Hp; apply pty_ind'.
  - apply Htu, L.
  - apply Ho, L.
Defined.
End Ind.

(** * Digits *)
Definition isDigit (c : ascii) : bool := let n := nat_of_ascii c in (48 <=? n)%nat && (n <=? 57)%nat.
Lemma uint_digits d c : In c (str (NilEmpty.string_of_uint d)) -> isDigit c = true.
Proof. induction d; simpl; intros [<-|H] || intros H; auto; try reflexivity; contradiction. Qed.
(** The characters of numbers, "inf" and "nan". *)
Definition isReal (c : ascii) : bool := existsb (Ascii.eqb c) (str "+-.0123456789Eaefin").
Definition nd (r : text) : Prop := match r with [] => True | c :: _ => isReal c = false end.
Lemma run_split a b r r' :
  (forall c, In c a -> isReal c = true) -> (forall c, In c b -> isReal c = true) -> nd r -> nd r' ->
  a ++ r = b ++ r' -> a = b /\ r = r'.
Proof.
  revert b. induction a as [|x a IH]; intros [|y b] Ha Hb N N' E; simpl in *.
  - auto.
  - subst r. simpl in N. rewrite (Hb y) in N by auto. discriminate.
  - subst r'. simpl in N'. rewrite (Ha x) in N' by auto. discriminate.
  - injection E as -> E. destruct (IH b) as (-> & ->); auto.
Qed.
Lemma num_real c : isnum c = true -> isReal c = true.
Proof.
  intros H. apply existsb_exists in H as (d & Hd & E). apply Ascii.eqb_eq in E. subst d.
  apply existsb_exists. exists c. split; [|apply Ascii.eqb_refl]. cbn in Hd |- *. tauto.
Qed.
Lemma jnumber_real q s : jnumber q s -> forall c, In c s -> isReal c = true.
Proof. intros J c Hc. apply num_real. pose proof (jnumber_chars q s J) as F. rewrite Forall_forall in F. auto. Qed.
Lemma inf_nan_real neg (b : bool) c : In c ((if neg : bool then str "-" else []) ++ (if b then str "inf" else str "nan")) -> isReal c = true.
Proof. destruct neg, b; cbn; intros H; repeat (destruct H as [<-|H]; [reflexivity|]); destruct H. Qed.
Lemma real_chars x c : In c (realText x) -> isReal c = true.
Proof.
  destruct x as [q| |neg|neg]; cbn [realText].
  - apply (jnumber_real (round6 q)). apply putQ_jnumber.
  - cbn. intros H; repeat (destruct H as [<-|H]; [reflexivity|]); destruct H.
  - apply (inf_nan_real neg true).
  - apply (inf_nan_real neg false).
Qed.
Lemma digits_decimal z : digits z = decimal z. Proof. reflexivity. Qed.
Lemma digits_chars z c : In c (digits z) -> isReal c = true.
Proof. rewrite digits_decimal. apply (jnumber_real (inject_Z z)), decimal_jnumber. Qed.
Lemma digits_split z z' r r' : nd r -> nd r' -> digits z ++ r = digits z' ++ r' -> z = z' /\ r = r'.
Proof.
  intros N N' E. destruct (run_split _ _ _ _ (digits_chars z) (digits_chars z') N N' E) as (E1 & ->). split; auto.
  pose proof (decimal_jnumber z) as A. pose proof (decimal_jnumber z') as B. rewrite !digits_decimal in E1. rewrite E1 in A.
  pose proof (jnumber_unique _ _ _ A B) as Q. injection Q as Q. exact Q.
Qed.
Lemma zero_text : putQ 0 = ["0"%char]. Proof. reflexivity. Qed.
Lemma negzero_jnumber : jnumber (inject_Z 0) (str "-0").
Proof. exact (putN_jnumber 0 true). Qed.
Lemma putQ_not_negzero q : putQ q <> str "-0".
Proof.
  intros E. pose proof (putQ_jnumber q) as A. rewrite E in A. pose proof (jnumber_unique _ _ _ A negzero_jnumber) as R.
  assert (P : putQ q = putQ 0) by (apply putQ_same; rewrite R; reflexivity). rewrite P in E. discriminate.
Qed.
Lemma putQ_not_letters q s : In "n"%char s -> putQ q <> s.
Proof.
  intros H E. pose proof (jnumber_chars _ _ (putQ_jnumber q)) as F. rewrite E in F. rewrite Forall_forall in F.
  specialize (F _ H). discriminate.
Qed.
Lemma real_same x y : realText x = realText y <-> sixAlike x y.
Proof.
  assert (L : forall q x, match x with Fin _ => False | _ => True end -> putQ q <> realText x).
  { intros q [p| |neg|neg] H; [destruct H|apply putQ_not_negzero| |]; apply putQ_not_letters; destruct neg; cbn; tauto. }
  split.
  - destruct x as [p| |n|n], y as [q| |n'|n']; cbn [sixAlike]; intros E; try reflexivity.
    + now apply putQ_same.
    + exfalso. exact (L p NegZero I E).
    + exfalso. exact (L p (Infinite n') I E).
    + exfalso. exact (L p (NotANumber n') I E).
    + exfalso. exact (L q NegZero I (eq_sym E)).
    + destruct n'; discriminate E.
    + destruct n'; discriminate E.
    + exfalso. exact (L q (Infinite n) I (eq_sym E)).
    + destruct n; discriminate E.
    + destruct n, n'; try discriminate E; reflexivity.
    + destruct n, n'; discriminate E.
    + exfalso. exact (L q (NotANumber n) I (eq_sym E)).
    + destruct n; discriminate E.
    + destruct n, n'; discriminate E.
    + destruct n, n'; try discriminate E; reflexivity.
  - destruct x as [p| |n|n], y as [q| |n'|n']; cbn [sixAlike]; intros E; try discriminate E; try (injection E as ->); try reflexivity.
    cbn [realText]. now apply putQ_same.
Qed.
Lemma real_split x y r r' : nd r -> nd r' -> realText x ++ r = realText y ++ r' -> sixAlike x y /\ r = r'.
Proof.
  intros N N' E. destruct (run_split _ _ _ _ (real_chars x) (real_chars y) N N' E) as (E1 & ->). split; auto. now apply real_same.
Qed.
Lemma real_head x : exists c r, realText x = c :: r /\ c <> " "%char.
Proof.
  assert (N : exists c r, realText x = c :: r).
  { destruct x as [q| |neg|neg]; cbn [realText]; [|eexists _, _; reflexivity| |].
    - destruct (jnumber_nonempty _ _ (putQ_jnumber q)) as (c & r & E & _). eauto.
    - destruct neg; eexists _, _; reflexivity.
    - destruct neg; eexists _, _; reflexivity. }
  destruct N as (c & r & E). exists c, r. split; auto. intros ->. pose proof (real_chars x " ") as Q. rewrite E in Q. discriminate (Q (or_introl eq_refl)).
Qed.
Lemma digits_head z : exists c r, digits z = c :: r /\ c <> " "%char.
Proof.
  unfold digits. destruct (Z.to_int z) as [d|d] eqn:Q.
  - destruct (NilEmpty.string_of_int (Decimal.Pos d)) as [|c s] eqn:S.
    + exfalso. destruct d; simpl in S; try discriminate.
      unfold Z.to_int in Q. destruct z as [|p|p]; try discriminate.
      injection Q as Q. destruct (DecimalPos.Unsigned.to_uint_nonnil p Q).
    + exists c, (str s). split; [reflexivity|]. intros ->.
      assert (D : isDigit " " = true); [|discriminate].
      apply (uint_digits d). simpl in S. rewrite S. now left.
  - simpl. eexists _, _. split; [reflexivity|discriminate].
Qed.

(** * Sequences of options *)
Lemma sequence_spec {A} (l : list (option A)) xs : sequence l = Some xs -> l = map Some xs.
Proof.
  revert xs. induction l as [|[a|] l IH]; intros xs E; simpl in E; try discriminate.
  - injection E as <-. reflexivity.
  - destruct (sequence l) as [r|]; [|discriminate]. injection E as <-. simpl. now rewrite (IH r).
Qed.
Lemma sequence_map {A} (xs : list A) : sequence (map Some xs) = Some xs.
Proof. induction xs; simpl; [reflexivity|]. now rewrite IHxs. Qed.

Lemma idxLoop_iter ts : forall size i, i + length ts = size -> idxLoop size i ts = iterLoop ts.
Proof.
  induction ts as [|x r IH]; intros size i E; simpl; [reflexivity|].
  simpl in E. f_equal. rewrite (IH size (S i)) by lia. f_equal.
  destruct r as [|y r]; simpl in *.
  - replace (i <? size - 1)%nat with false; auto. symmetry. apply Nat.ltb_ge. lia.
  - replace (i <? size - 1)%nat with true; auto. symmetry. apply Nat.ltb_lt. lia.
Qed.
Lemma idxLoop_iter0 ts : idxLoop (length ts) 0 ts = iterLoop ts.
Proof. apply idxLoop_iter. lia. Qed.

(** Which printer is selected. *)
Lemma sel_num tr k z : classSelector (accepts tr (PNum k z)) printers = Some PrExportable. Proof. reflexivity. Qed.
Lemma sel_real tr x : classSelector (accepts tr (PReal x)) printers = Some PrExportable. Proof. reflexivity. Qed.
Lemma sel_bool tr b : classSelector (accepts tr (PBool b)) printers = Some PrExportable. Proof. reflexivity. Qed.
Lemma sel_text tr s : classSelector (accepts tr (PText s)) printers = Some PrText. Proof. reflexivity. Qed.
Lemma sel_seq tr i l : classSelector (accepts tr (PSeq i l)) printers = Some PrIterable. Proof. reflexivity. Qed.
Lemma sel_idx tr l : classSelector (accepts tr (PIdx l)) printers = Some PrIndexable. Proof. reflexivity. Qed.
Lemma sel_pair tr a b : classSelector (accepts tr (PPair a b)) printers = Some PrTuple. Proof. reflexivity. Qed.
Lemma sel_tup tr l : classSelector (accepts tr (PTup l)) printers = Some PrTuple. Proof. reflexivity. Qed.
Lemma sel_obj (tr : nat -> option (list (text * nat))) c l ms : tr c = Some ms -> classSelector (accepts tr (PObj c l)) printers = Some PrTraited.
Proof. intros E. unfold printers. cbn [classSelector accepts]. rewrite E. reflexivity. Qed.

Section E.
Variables (out : sink) (tr : nat -> option (list (text * nat))).
Local Notation ex := (export out tr).

(** The text of a variable, printer by printer. *)
Inductive shows : pval -> text -> Prop :=
| S_num k z s : onNum out k z = Some s -> shows (PNum k z) s
| S_real x : shows (PReal x) (realText x)
| S_bool b : shows (PBool b) (if b then str "true" else str "false")
| S_text s : shows (PText s) (onText out s)
| S_seq i l ts : Forall2 (fun v t => ex v = Some t) l ts -> shows (PSeq i l) (str "[ " ++ iterLoop ts ++ str " ]")
| S_idx l ts : Forall2 (fun v t => ex v = Some t) l ts -> shows (PIdx l) (str "[ " ++ iterLoop ts ++ str " ]")
| S_pair a b ta tb : ex a = Some ta -> ex b = Some tb -> shows (PPair a b) (str "{ " ++ ta ++ str ": " ++ tb ++ str "}")
| S_tup l ts : Forall2 (fun v t => ex v = Some t) l ts -> shows (PTup l) (str "[ " ++ iterLoop ts ++ str "]")
| S_obj c l ms ts t : tr c = Some ms ->
    Forall2 (fun m e => fst e = fst m /\ exists v, nth_error l (snd m) = Some v /\ ex v = Some (snd e)) ms ts ->
    classLoop ts = Some t -> shows (PObj c l) (str "{ " ++ t ++ str " }").

Lemma seq_forall2 l ts : sequence (map ex l) = Some ts <-> Forall2 (fun v t => ex v = Some t) l ts.
Proof.
  split.
  - intros E. apply sequence_spec in E. revert ts E. induction l as [|v l IH]; intros [|t ts] E; simpl in E; try discriminate; constructor.
    + injection E as E _. auto.
    + apply IH. injection E as _ E. auto.
  - intros F. induction F as [|v t l ts E F IH]; simpl; [reflexivity|]. rewrite E, IH. reflexivity.
Qed.
Lemma ms_forall2 l ms ts :
  sequence (map (fun m : text * nat => obind (nth_error (map ex l) (snd m)) (fun o => option_map (pair (fst m)) o)) ms) = Some ts <->
  Forall2 (fun m e => fst e = fst m /\ exists v, nth_error l (snd m) = Some v /\ ex v = Some (snd e)) ms ts.
Proof.
  split.
  - intros E. apply sequence_spec in E. revert ts E. induction ms as [|m ms IH]; intros [|t ts] E; simpl in E; try discriminate; constructor.
    + injection E as E _. rewrite nth_error_map in E. destruct (nth_error l (snd m)) as [v|]; [|discriminate].
      simpl in E. destruct (ex v) as [s|] eqn:Q; [|discriminate]. injection E as <-. eauto.
    + apply IH. injection E as _ E. auto.
  - intros F. induction F as [|m e ms ts (E1 & v & E2 & E3) F IH]; simpl; [reflexivity|].
    rewrite nth_error_map, E2. simpl. rewrite E3. simpl. rewrite IH. simpl. rewrite <- E1. now destruct e.
Qed.
Lemma export_shows v s : ex v = Some s <-> shows v s.
Proof.
  split.
  - destruct v; intros E; cbn [export] in E.
    + rewrite sel_num in E. now constructor.
    + rewrite sel_real in E. injection E as <-. constructor.
    + rewrite sel_bool in E. injection E as <-. constructor.
    + rewrite sel_text in E. injection E as <-. constructor.
    + rewrite sel_seq in E. destruct (sequence (map ex l)) as [ts|] eqn:Q; [|discriminate]. cbn [obind] in E.
      injection E as <-. constructor. now apply seq_forall2.
    + rewrite sel_idx in E. destruct (sequence (map ex l)) as [ts|] eqn:Q; [|discriminate]. cbn [obind] in E.
      injection E as <-. rewrite idxLoop_iter0. constructor. now apply seq_forall2.
    + rewrite sel_pair in E. destruct (ex v1) as [t1|] eqn:Q1; [|discriminate]. cbn [obind] in E.
      destruct (ex v2) as [t2|] eqn:Q2; [|discriminate]. cbn [obind] in E. injection E as <-. now constructor.
    + rewrite sel_tup in E. destruct (sequence (map ex l)) as [ts|] eqn:Q; [|discriminate]. cbn [obind] in E.
      injection E as <-. rewrite idxLoop_iter0. constructor. now apply seq_forall2.
    + destruct (tr c) as [ms|] eqn:Q.
      2:{ destruct (classSelector (accepts tr (PObj c l)) printers) as [[]|]; discriminate. }
      rewrite (sel_obj tr c l ms Q) in E.
      destruct (sequence _) as [ts|] eqn:Q2 in E; [|discriminate]. cbn [obind] in E.
      destruct (classLoop ts) as [t|] eqn:Q3; [|discriminate]. injection E as <-.
      apply ms_forall2 in Q2. econstructor; eauto.
  - destruct 1; cbn [export].
    + now rewrite sel_num.
    + now rewrite sel_real.
    + now rewrite sel_bool.
    + now rewrite sel_text.
    + apply seq_forall2 in H. rewrite H, sel_seq. reflexivity.
    + apply seq_forall2 in H. rewrite H, sel_idx. cbn [obind]. now rewrite idxLoop_iter0.
    + rewrite H, H0, sel_pair. reflexivity.
    + apply seq_forall2 in H. rewrite H, sel_tup. cbn [obind]. now rewrite idxLoop_iter0.
    + rewrite (sel_obj tr c l ms H), H. apply ms_forall2 in H0. rewrite H0. cbn [obind]. rewrite H1. reflexivity.
Qed.
End E.

(** * Traits that are the same for every class give the same text *)
Section IndV.
Variable P : pval -> Prop.
Hypothesis Hn : forall k z, P (PNum k z).
Hypothesis Hr : forall x, P (PReal x).
Hypothesis Hb : forall b, P (PBool b).
Hypothesis Ht : forall s, P (PText s).
Hypothesis Hs : forall i l, (forall v, In v l -> P v) -> P (PSeq i l).
Hypothesis Hi : forall l, (forall v, In v l -> P v) -> P (PIdx l).
Hypothesis Hp : forall a b, P a -> P b -> P (PPair a b).
Hypothesis Htu : forall l, (forall v, In v l -> P v) -> P (PTup l).
Hypothesis Ho : forall c l, (forall v, In v l -> P v) -> P (PObj c l).
Fixpoint pval_ind' (v : pval) : P v.
Proof.
  assert (L : forall l : list pval, forall v, In v l -> P v).
  { fix F 1. intros [|a l] w H; [contradiction|]. destruct H as [<-|H]; [apply pval_ind'|exact (F l w H)]. }
  destruct v as [k z|x|b|s|i l|l|a b|l|c l].
  - apply Hn.
  - apply Hr.
  - apply Hb.
  - apply Ht.
  - apply Hs, L.
  - apply Hi, L.
  - apply Hp; apply pval_ind'.
  - apply Htu, L.
  - apply Ho, L.
Defined.
End IndV.
Lemma export_ext out tr tr' v : (forall c, tr c = tr' c) -> export out tr v = export out tr' v.
Proof.
  intros T. induction v using pval_ind'; cbn [export]; auto.
  - rewrite (map_ext_in _ (export out tr') l) by auto. reflexivity.
  - rewrite (map_ext_in _ (export out tr') l) by auto. reflexivity.
  - rewrite IHv1, IHv2. reflexivity.
  - rewrite (map_ext_in _ (export out tr') l) by auto. reflexivity.
  - rewrite (map_ext_in _ (export out tr') l) by auto. rewrite T.
    replace (classSelector (accepts tr (PObj c l)) printers) with (classSelector (accepts tr' (PObj c l)) printers); [reflexivity|].
    unfold printers. cbn [classSelector accepts]. rewrite T. reflexivity.
Qed.

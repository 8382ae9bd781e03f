(** Proofs about the serialization by traits. *)
From Verif Require Import P_Base M_Traits M_Serial S_Serial P_Serial T_Serial M_BoundSerial S_BoundSerial.
Local Open Scope nat_scope.

Section Ind.
Variable P : dval -> Prop.
Hypothesis H1 : forall t x, P (VLeaf t x).
Hypothesis H2 : forall p l, P p -> Forall P l -> P (VSeq p l).
Hypothesis H3 : forall c l, Forall P l -> P (VObj c l).
Fixpoint dval_ind' (v : dval) : P v :=
  match v with
  | VLeaf t x => H1 t x
  | VSeq p l => H2 p l (dval_ind' p) ((fix go l := match l return Forall P l with [] => Forall_nil P | x :: r => Forall_cons x (dval_ind' x) (go r) end) l)
  | VObj c l => H3 c l ((fix go l := match l return Forall P l with [] => Forall_nil P | x :: r => Forall_cons x (dval_ind' x) (go r) end) l)
  end.
End Ind.

Lemma alike_case v w : alike v w ->
  match v with
  | VLeaf t x => plain t /\ obj t x /\ exists y, w = VLeaf t y /\ obj t y
  | VSeq p l => exists q l', w = VSeq q l' /\ (forall x y, In x l -> In y (q :: l') -> alike x y) /\ (N.of_nat (length l) < 2 ^ 64)%N
  | VObj c l => exists l', w = VObj c l' /\ Forall2 alike l l'
  end.
Proof. intros H. destruct H; [eauto 6|eauto 8|eauto]. Qed.

Lemma oseq_F2 {A} (l : list (option A)) r : oseq l = Some r -> Forall2 (fun o a => o = Some a) l r.
Proof.
  revert r. induction l as [|o l IH]; intros r E; cbn in E; [injection E as <-; constructor|].
  destruct o as [a|]; [|discriminate]. fold (oseq l) in E. destruct (oseq l) as [q|] eqn:Eq; [|discriminate]. injection E as <-. constructor; [reflexivity|now apply IH].
Qed.
Lemma pick_F2 {A} (l : list (option A)) ps r : pick l ps = Some r -> Forall2 (fun i a => nth_error l i = Some (Some a)) ps r.
Proof.
  intros E. apply oseq_F2 in E. revert r E. induction ps as [|i ps IH]; intros r E; inversion E as [|? a ? r' Ha Hr]; subst; [constructor|].
  constructor; [destruct (nth_error l i) as [o|]; [congruence|discriminate]|]. apply IH. exact Hr.
Qed.

Lemma setNth_length i v l : length (setNth i v l) = length l.
Proof. revert i. induction l as [|x l IH]; intros [|i]; cbn; auto. Qed.
Lemma setNth_same i v l : i < length l -> nth_error (setNth i v l) i = Some v.
Proof. revert i. induction l as [|x l IH]; intros [|i] H; cbn in *; try lia; [reflexivity|]. apply IH. lia. Qed.
Lemma setNth_other i j v l : i <> j -> nth_error (setNth i v l) j = nth_error l j.
Proof. revert i j. induction l as [|x l IH]; intros [|i] [|j] H; cbn; try reflexivity; try congruence. apply IH. congruence. Qed.

Section Steps.
(** Any writer, reader and specification of single values. *)
Variable w : dval -> option (list N).
Variable r : dval -> list N -> outcome (dval * list N).
Variable spec : dval -> dval -> dval -> Prop.
Definition good (v : dval) : Prop := forall old b rest, alike v old -> w v = Some b -> exists z, r old (b ++ rest) = Ok (z, rest) /\ spec v old z.

Lemma runAll_ok l : Forall good l -> forall bs olds rest,
  Forall2 (fun o a => o = Some a) (map w l) bs -> Forall2 alike l olds ->
  exists zs, runAll (map r olds) (concat bs ++ rest) = Ok (zs, rest) /\ length zs = length l /\
    forall i x y z, nth_error l i = Some x -> nth_error olds i = Some y -> nth_error zs i = Some z -> spec x y z.
Proof.
  induction 1 as [|v l G _ IH]; intros bs olds rest F A; inversion F as [|? b ? bs' Hb Hbs]; inversion A as [|? o ? olds' Ho Hos]; subst.
  - exists []. split; [reflexivity|]. split; [reflexivity|]. intros [|i] x y z E; discriminate.
  - destruct (G o b (concat bs' ++ rest) Ho Hb) as (z & Ez & Sz). destruct (IH bs' olds' rest Hbs Hos) as (zs & Ezs & Lz & Szs).
    exists (z :: zs). cbn [map runAll concat]. rewrite <- app_assoc, Ez. cbn [bind fst snd]. rewrite Ezs. split; [reflexivity|]. split; [cbn; lia|].
    intros [|i] x y q E1 E2 E3; cbn in E1, E2, E3; [congruence|eauto].
Qed.

Lemma runAt_ok l (olds : list dval) : Forall good l -> Forall2 alike l olds -> forall ps bs cur rest, NoDup ps ->
  Forall2 (fun i a => nth_error (map w l) i = Some (Some a)) ps bs -> length cur = length olds -> (forall i, In i ps -> nth_error cur i = nth_error olds i) ->
  exists zs, runAt (map r olds) ps cur (concat bs ++ rest) = Ok (zs, rest) /\ length zs = length olds /\
    (forall i, In i ps -> exists x y z, nth_error l i = Some x /\ nth_error olds i = Some y /\ nth_error zs i = Some z /\ spec x y z) /\
    (forall i, ~ In i ps -> nth_error zs i = nth_error cur i).
Proof.
  intros G A. induction ps as [|i ps IH]; intros bs cur rest ND F L HC; inversion F as [|? b ? bs' Hb Hbs]; subst.
  - exists cur. split; [reflexivity|]. split; [exact L|]. split; [intros i []|reflexivity].
  - inversion ND as [|? ? NI ND']; subst. rewrite nth_error_map in Hb. destruct (nth_error l i) as [x|] eqn:Ex; [|discriminate]. cbn in Hb. injection Hb as Hb.
    assert (EY : exists y, nth_error olds i = Some y /\ alike x y).
    { clear -A Ex. revert i Ex. induction A as [|a o l olds Ha _ IHA]; intros [|i] Ex; cbn in *; try discriminate; [injection Ex as ->; eauto|eauto]. }
    destruct EY as (y & Ey & Hxy). assert (Gx : good x) by (rewrite Forall_forall in G; apply G; eapply nth_error_In; eassumption).
    destruct (Gx y b (concat bs' ++ rest) Hxy Hb) as (z & Ez & Sz).
    assert (Li : i < length cur) by (rewrite L; apply nth_error_Some; congruence).
    destruct (IH bs' (setNth i z cur) rest ND' Hbs) as (zs & Ezs & Lz & S1 & S2).
    { rewrite setNth_length. exact L. }
    { intros j Hj. rewrite setNth_other; [apply HC; right; exact Hj|]. intros ->. contradiction. }
    exists zs. cbn [runAt concat]. rewrite nth_error_map, Ey. cbn [option_map]. rewrite <- app_assoc, Ez. cbn [bind fst snd]. split; [exact Ezs|]. split; [exact Lz|]. split.
    + intros j [<-|Hj]; [|apply S1; exact Hj]. exists x, y, z. split; [exact Ex|]. split; [exact Ey|]. split; [|exact Sz]. rewrite S2 by exact NI. now apply setNth_same.
    + intros j Hj. rewrite S2 by (intros X; apply Hj; now right). apply setNth_other. intros ->. apply Hj. now left.
Qed.

Lemma mapRepeat {A B} (f : A -> B) x n : map f (repeat x n) = repeat (f x) n.
Proof. induction n; cbn; [reflexivity|]. now f_equal. Qed.
Lemma readers (q : dval) l' n : firstn n (map r l') ++ repeat (r q) (n - length l') = map r (firstn n l' ++ repeat q (n - length l')).
Proof. rewrite map_app, firstn_map, mapRepeat. reflexivity. Qed.
Lemma seq_ok l q l' bs rest : Forall good l -> (forall x y, In x l -> In y (q :: l') -> alike x y) -> (N.of_nat (length l) < 2 ^ 64)%N ->
  oseq (map w l) = Some bs ->
  exists zs, (nb <- get_size ((put_size (length bs) ++ concat bs) ++ rest) ;;
     lb <- runAll (firstn (fst nb) (map r l') ++ repeat (r q) (fst nb - length l')) (snd nb) ;; Ok (VSeq q (fst lb), snd lb)) = Ok (VSeq q zs, rest) /\
    length zs = length l /\
    forall i x y, nth_error l i = Some x -> nth_error zs i = Some y -> exists o, spec x o y /\ (nth_error l' i = Some o \/ nth_error l' i = None /\ o = q).
Proof.
  intros G A B E. pose proof (oseq_F2 _ _ E) as F. pose proof (Forall2_length' _ _ _ F) as LF. rewrite map_length in LF.
  rewrite <- app_assoc, get_size_put by (rewrite <- LF; exact B). cbn [bind fst snd]. rewrite readers. set (olds := firstn (length bs) l' ++ repeat q (length bs - length l')).
  assert (LO : length olds = length l) by (unfold olds; rewrite app_length, firstn_length, repeat_length; lia).
  assert (NO : forall i o, nth_error olds i = Some o -> nth_error l' i = Some o \/ nth_error l' i = None /\ o = q).
  { intros i o H. unfold olds in H. destruct (Nat.lt_ge_cases i (length (firstn (length bs) l'))) as [C|C].
    - left. rewrite nth_error_app1 in H by exact C. rewrite firstn_length in C. rewrite <- (firstn_skipn (length bs) l'). rewrite nth_error_app1; [exact H|rewrite firstn_length; lia].
    - rewrite nth_error_app2 in H by exact C. pose proof (nth_error_In _ _ H) as X. apply repeat_spec in X.
      assert (i < length olds) by (unfold olds; apply nth_error_Some; rewrite nth_error_app2 by exact C; congruence). rewrite firstn_length in C. right. split; [|exact X].
      apply nth_error_None. lia. }
  assert (AL : Forall2 alike l olds).
  { apply Forall2_nth. split; [symmetry; exact LO|]. intros i x o Hx Ho. apply A; [eapply nth_error_In; exact Hx|].
    destruct (NO i o Ho) as [H|[_ ->]]; [right; eapply nth_error_In; exact H|left; reflexivity]. }
  destruct (runAll_ok l G bs olds rest F AL) as (zs & Ez & Lz & Sz). exists zs. rewrite Ez. cbn [bind fst snd]. split; [reflexivity|]. split; [exact Lz|].
  intros i x y Hx Hy. assert (Hi : i < length olds) by (rewrite LO; apply nth_error_Some; congruence). apply nth_error_Some in Hi. destruct (nth_error olds i) as [o|] eqn:Eo; [|congruence].
  exists o. split; [eapply Sz; eassumption|apply NO; exact Eo].
Qed.
End Steps.

Section Main.
Variable dflt : nat -> option (list nat).
Hypothesis ND : forall c ps, dflt c = Some ps -> NoDup ps.
Lemma rd_wr v : good (wr dflt) (rd dflt) (restored dflt) v.
Proof.
  induction v as [t x|p l _ IH|c l IH] using dval_ind'; intros old b rest A E; apply alike_case in A.
  - destruct A as (Pt & Ox & y & -> & Oy). cbn in E. injection E as <-. cbn [rd]. rewrite C37_any_target by assumption. cbn [bind fst snd].
    eexists. split; [reflexivity|constructor].
  - destruct A as (q & l' & -> & A & B). cbn [wr] in E. destruct (oseq (map (wr dflt) l)) as [bs|] eqn:Eo; [|discriminate]. injection E as <-.
    destruct (seq_ok _ _ _ l q l' bs rest IH A B Eo) as (zs & Ez & Lz & Sz). exists (VSeq q zs). split; [exact Ez|]. constructor; assumption.
  - destruct A as (l' & -> & A). cbn [wr] in E. destruct (dflt c) as [ps|] eqn:Ec; [|discriminate]. destruct (pick (map (wr dflt) l) ps) as [bs|] eqn:Eo; [|discriminate].
    injection E as <-. apply pick_F2 in Eo. destruct (runAt_ok _ _ _ l l' IH A ps bs l' rest (ND c ps Ec) Eo eq_refl (fun _ _ => eq_refl)) as (zs & Ez & Lz & S1 & S2).
    exists (VObj c zs). cbn [rd]. rewrite Ec, Ez. cbn [bind fst snd]. split; [reflexivity|]. eapply Re_obj; eassumption.
Qed.
Variable tup : list (nat * list nat).
Hypothesis NT : forall c ps, bound dflt tup c = Some ps -> NoDup ps.
Lemma rd_wr_bound v : good (wrBound dflt tup) (rdBound dflt tup) (restored_bound (bound dflt tup) dflt) v.
Proof.
  induction v as [t x|p l _ IH|c l _] using dval_ind'; intros old b rest A E; apply alike_case in A.
  - discriminate E.
  - destruct A as (q & l' & -> & A & B). cbn [wrBound] in E. destruct (oseq (map (wrBound dflt tup) l)) as [bs|] eqn:Eo; [|discriminate]. injection E as <-.
    destruct (seq_ok _ _ _ l q l' bs rest IH A B Eo) as (zs & Ez & Lz & Sz). exists (VSeq q zs). split; [exact Ez|]. constructor; assumption.
  - destruct A as (l' & -> & A). cbn [wrBound] in E. destruct (bound dflt tup c) as [ps|] eqn:Ec; [|discriminate]. destruct (pick (map (wr dflt) l) ps) as [bs|] eqn:Eo; [|discriminate].
    injection E as <-. apply pick_F2 in Eo.
    destruct (runAt_ok _ _ _ l l' (proj2 (Forall_forall _ _) (fun v _ => rd_wr v)) A ps bs l' rest (NT c ps Ec) Eo eq_refl (fun _ _ => eq_refl)) as (zs & Ez & Lz & S1 & S2).
    exists (VObj c zs). cbn [rdBound]. rewrite Ec, Ez. cbn [bind fst snd]. split; [reflexivity|]. eapply Rb_obj; eassumption.
Qed.
End Main.

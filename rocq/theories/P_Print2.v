From Coq Require Import String Ascii ZArith Lia.
From Verif Require Import Base P_Base M_Traits M_Print S_Json S_Print P_Print.
Local Open Scope list_scope.

Section F.
Variables (tr : nat -> option (list (text * nat))).
Local Notation ex := (export stream tr).
Local Notation shows := (shows stream tr).

Lemma ex_head v s : ex v = Some s -> exists c r, s = c :: r /\ c <> " "%char.
Proof.
  intros E. apply export_shows in E. destruct E; try (eexists _, _; split; [reflexivity|discriminate]).
  - injection H as <-. apply digits_head.
  - apply real_head.
  - destruct b; eexists _, _; (split; [reflexivity|discriminate]).
Qed.

(** Texts of [a] and [b] can be told from each other whatever follows. *)
Definition KEY (a b : pval) : Prop := forall s s' r r',
  ex a = Some s -> ex b = Some s' -> s ++ r = s' ++ r' -> nd r -> nd r' -> agree tr a b /\ r = r'.

Lemma loop_split cl : cl = str " ]" \/ cl = str "]" -> forall l l' ts ts' r r',
  Forall2 (fun v t => ex v = Some t) l ts -> Forall2 (fun v t => ex v = Some t) l' ts' ->
  (forall k a b, nth_error l k = Some a -> nth_error l' k = Some b -> KEY a b) ->
  (length l = length l' \/ cl = str " ]") ->
  iterLoop ts ++ cl ++ r = iterLoop ts' ++ cl ++ r' ->
  length l = length l' /\ (forall k a b, nth_error l k = Some a -> nth_error l' k = Some b -> agree tr a b) /\ r = r'.
Proof.
  intros CL. induction l as [|a l IH]; intros l' ts ts' r r' F F' HK LE E.
  - inversion F; subst. destruct l' as [|b l']; inversion F'; subst.
    + splits; auto; [intros k ? ? Q; destruct k; discriminate|]. cbn [iterLoop app] in E. now apply app_inv_head in E.
    + exfalso. destruct LE as [LE|LE]; [discriminate|]. subst cl.
      destruct (ex_head _ _ H1) as (c & q & -> & N). cbn in E. injection E as E _. congruence.
  - inversion F as [|? t ? ts0 Et F0]; subst. destruct l' as [|b l'].
    + inversion F'; subst. exfalso. destruct LE as [LE|LE]; [discriminate|]. subst cl.
      destruct (ex_head _ _ Et) as (c & q & -> & N). cbn in E. injection E as E _. congruence.
    + inversion F' as [|? t' ? ts0' Et' F0']; subst. cbn [iterLoop] in E. rewrite <- !app_assoc in E.
      assert (ND : forall (q : list text) u, nd (match q with [] => [] | _ => str ", " end ++ iterLoop q ++ cl ++ u)).
      { intros [|x q] u; [|reflexivity]. cbn [iterLoop app]. destruct CL as [-> | ->]; reflexivity. }
      destruct (HK 0 a b eq_refl eq_refl _ _ _ _ Et Et' E (ND _ _) (ND _ _)) as (AG & E').
      assert (X : length l = length l' /\ (forall k a b, nth_error l k = Some a -> nth_error l' k = Some b -> agree tr a b) /\ r = r').
      { assert (HK' : forall k a b, nth_error l k = Some a -> nth_error l' k = Some b -> KEY a b).
        { intros k x y Q1 Q2. apply (HK (S k)); auto. }
        destruct ts0 as [|x ts0], ts0' as [|x' ts0'].
        - inversion F0; inversion F0'; subst. splits; auto; [intros k ? ? Q; destruct k; discriminate|]. cbn [iterLoop app] in E'. now apply app_inv_head in E'.
        - exfalso. cbn [iterLoop app] in E'. destruct CL as [-> | ->]; discriminate.
        - exfalso. cbn [iterLoop app] in E'. destruct CL as [-> | ->]; discriminate.
        - apply app_inv_head in E'. apply (IH l' (x :: ts0) (x' :: ts0')); auto.
          destruct LE as [LE|LE]; auto. }
      destruct X as (X1 & X2 & X3). splits; auto; [simpl; now rewrite X1|].
      intros [|k] x y Q1 Q2; [injection Q1 as <-; injection Q2 as <-; exact AG|eauto].
Qed.

Lemma class_split : forall (ms : list (text * nat)) l l' ts ts' t t' r r',
  Forall2 (fun m e => fst e = fst m /\ exists v, nth_error l (snd m) = Some v /\ ex v = Some (snd e)) ms ts ->
  Forall2 (fun m e => fst e = fst m /\ exists v, nth_error l' (snd m) = Some v /\ ex v = Some (snd e)) ms ts' ->
  (forall k a b, nth_error l k = Some a -> nth_error l' k = Some b -> KEY a b) ->
  classLoop ts = Some t -> classLoop ts' = Some t' ->
  t ++ str " }" ++ r = t' ++ str " }" ++ r' ->
  (forall nm k a b, In (nm, k) ms -> nth_error l k = Some a -> nth_error l' k = Some b -> agree tr a b) /\ r = r'.
Proof.
  induction ms as [|[nm i] ms IH]; intros l l' ts ts' t t' r r' F F' HK C C' E.
  - inversion F; subst. discriminate.
  - inversion F as [|? [nm1 x] ? ts0 (En & v & Ev & Ex) F0]; subst. inversion F' as [|? [nm2 x'] ? ts0' (En' & v' & Ev' & Ex') F0']; subst.
    cbn [fst snd] in *. subst nm1 nm2.
    assert (ST : forall (u w : text), memberText nm x ++ u = memberText nm x' ++ w -> x ++ u = x' ++ w).
    { intros u w Q. unfold memberText in Q. rewrite <- !app_assoc in Q. do 3 apply app_inv_head in Q. exact Q. }
    destruct ts0 as [|e ts0], ts0' as [|e' ts0'].
    + inversion F0; subst. cbn [classLoop] in C, C'. injection C as <-. injection C' as <-.
      apply ST in E. destruct (HK _ _ _ Ev Ev' _ _ _ _ Ex Ex' E eq_refl eq_refl) as (AG & E').
      apply app_inv_head in E'. split; auto.
      intros nm' k a b [Q|[]] Ea Eb. injection Q as <- <-. congruence.
    + inversion F0; subst. inversion F0'.
    + inversion F0'; subst. inversion F0.
    + cbn [classLoop] in C, C'. destruct e as [n1 y], e' as [n2 y'].
      change (option_map (fun t : text => memberText nm x ++ str ", " ++ t) (classLoop ((n1, y) :: ts0)) = Some t) in C.
      change (option_map (fun t : text => memberText nm x' ++ str ", " ++ t) (classLoop ((n2, y') :: ts0')) = Some t') in C'.
      destruct (classLoop ((n1, y) :: ts0)) as [t0|] eqn:Q; [|discriminate]. assert (C1 : memberText nm x ++ str ", " ++ t0 = t) by (cbn [option_map] in C; congruence). subst t. clear C.
      destruct (classLoop ((n2, y') :: ts0')) as [t0'|] eqn:Q'; [|discriminate]. assert (C1 : memberText nm x' ++ str ", " ++ t0' = t') by (cbn [option_map] in C'; congruence). subst t'. clear C'.
      rewrite <- !app_assoc in E. apply ST in E.
      destruct (HK _ _ _ Ev Ev' _ _ _ _ Ex Ex' E eq_refl eq_refl) as (AG & E').
      apply app_inv_head in E'.
      destruct (IH l l' _ _ _ _ _ _ F0 F0' HK Q Q' E') as (AGs & ->). split; auto.
      intros nm' k a b [Q2|Q2] Ea Eb; [injection Q2 as <- <-; congruence|eauto].
Qed.

Lemma quote_split (a b r r' : text) : noQuote a -> noQuote b -> a ++ """"%char :: r = b ++ """"%char :: r' -> a = b /\ r = r'.
Proof.
  revert b. induction a as [|x a IH]; intros [|y b] Ha Hb E; cbn in E.
  - injection E as <-. auto.
  - injection E as E1 _. exfalso. apply Hb. left. auto.
  - injection E as E1 _. exfalso. apply Ha. left. auto.
  - injection E as -> E. destruct (IH b) as (-> & ->); auto; intros Q; [apply Ha|apply Hb]; now right.
Qed.

Lemma faithful t : forall v w, hasTy tr anyKind noQuote t v -> hasTy tr anyKind noQuote t w -> KEY v w.
Proof.
  induction t using pty_ind'; intros v w Hv Hw s s' r r' E E' EQ N N';
    apply export_shows in E; apply export_shows in E'; inversion Hv; subst; inversion Hw; subst;
    inversion E; subst; inversion E'; subst.
  - match goal with H1 : onNum _ _ _ = _, H2 : onNum _ _ _ = _ |- _ => injection H1 as <-; injection H2 as <- end.
    destruct (digits_split _ _ _ _ N N' EQ) as (-> & ->). split; constructor.
  - destruct (real_split _ _ _ _ N N' EQ) as (A & ->). split; [now constructor|reflexivity].
  - destruct b, b0; try discriminate; (split; [constructor|]); now apply app_inv_head in EQ.
  - cbn [stream onText] in EQ. rewrite <- !app_assoc in EQ. cbn in EQ. injection EQ as EQ.
    apply quote_split in EQ; auto. destruct EQ as (-> & ->). split; constructor.
  - rewrite <- !app_assoc in EQ. apply app_inv_head in EQ.
    match type of EQ with iterLoop ?ts1 ++ _ = iterLoop ?ts2 ++ _ =>
      match goal with F : Forall2 _ _ ts1, F' : Forall2 _ _ ts2 |- _ =>
      pose proof (loop_split (str " ]") (or_introl eq_refl) _ _ _ _ r r' F F') as LS end end.
    destruct LS as (A1 & A2 & A3); auto.
    + intros k a b Ka Kb. apply IHt; match goal with H : forall v, In v _ -> hasTy _ _ _ _ v |- _ => apply H; eapply nth_error_In; eassumption end.
    + split; auto. now constructor.
  - rewrite <- !app_assoc in EQ. apply app_inv_head in EQ.
    match type of EQ with iterLoop ?ts1 ++ _ = iterLoop ?ts2 ++ _ =>
      match goal with F : Forall2 _ _ ts1, F' : Forall2 _ _ ts2 |- _ =>
      pose proof (loop_split (str " ]") (or_introl eq_refl) _ _ _ _ r r' F F') as LS end end.
    destruct LS as (A1 & A2 & A3); auto.
    + intros k a b Ka Kb. apply IHt; match goal with H : forall v, In v _ -> hasTy _ _ _ _ v |- _ => apply H; eapply nth_error_In; eassumption end.
    + split; auto. now constructor.
  - rewrite <- !app_assoc in EQ. apply app_inv_head in EQ.
    match goal with A1 : hasTy _ _ _ t1 ?a, A2 : hasTy _ _ _ t1 ?b, Ea : ex ?a = Some _, Eb : ex ?b = Some _ |- _ =>
      destruct (IHt1 a b A1 A2 _ _ _ _ Ea Eb EQ eq_refl eq_refl) as (AG1 & EQ1) end.
    apply app_inv_head in EQ1.
    match goal with A1 : hasTy _ _ _ t2 ?a, A2 : hasTy _ _ _ t2 ?b, Ea : ex ?a = Some _, Eb : ex ?b = Some _ |- _ =>
      destruct (IHt2 a b A1 A2 _ _ _ _ Ea Eb EQ1 eq_refl eq_refl) as (AG2 & EQ2) end.
    apply app_inv_head in EQ2. split; auto. now constructor.
  - rewrite <- !app_assoc in EQ. apply app_inv_head in EQ.
    match type of EQ with iterLoop ?ts1 ++ _ = iterLoop ?ts2 ++ _ =>
      match goal with F : Forall2 _ _ ts1, F' : Forall2 _ _ ts2 |- _ =>
      pose proof (loop_split (str "]") (or_intror eq_refl) _ _ _ _ r r' F F') as LS end end.
    destruct LS as (A1 & A2 & A3); auto.
    + intros k a b Ka Kb. destruct (nth_error l k) as [tk|] eqn:Kt.
      * eapply (H k tk Kt); eauto.
      * exfalso. apply nth_error_None in Kt. assert (k < length l0) by (apply nth_error_Some; congruence). congruence || lia.
    + left. congruence.
    + split; auto. now constructor.
  - rewrite <- !app_assoc in EQ. apply app_inv_head in EQ.
    match goal with Q1 : tr c = Some ?m1, Q2 : tr c = Some ?m2, Q3 : tr c = Some ?m3, Q4 : tr c = Some ?m4 |- _ =>
      assert (m2 = m1) by congruence; assert (m3 = m1) by congruence; assert (m4 = m1) by congruence; subst m2 m3 m4 end.
    match goal with F : Forall2 _ _ ?ts, F' : Forall2 _ _ ?ts', C : classLoop ?ts = Some _, C' : classLoop ?ts' = Some _ |- _ =>
      edestruct (fun K => class_split _ _ _ _ _ _ _ _ _ F F' K C C' EQ) as (A1 & A2) end; auto.
    + intros k a b Ka Kb. destruct (nth_error l k) as [tk|] eqn:Kt.
      * eapply (H k tk Kt); eauto.
      * exfalso. apply nth_error_None in Kt. assert (k < length l0) by (apply nth_error_Some; congruence). congruence || lia.
    + split; auto. econstructor; eauto.
Qed.
End F.

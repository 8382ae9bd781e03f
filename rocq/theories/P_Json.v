From Coq Require Import String Ascii ZArith Lia.
From Verif Require Import Base P_Base M_Traits M_Print P_Stream S_Json P_JNum S_Print P_Print.
Local Open Scope list_scope.

(** * Totality, and dependence on traited members only *)
Section G.
Variables (out : sink) (tr : nat -> option (list (text * nat))) (okK : ikind -> Prop) (okT : text -> Prop).
Local Notation ex := (export out tr).
Local Notation ht := (hasTy tr okK okT).

Lemma seq_total l : (forall v, In v l -> exists s, ex v = Some s) -> exists ts, Forall2 (fun v t => ex v = Some t) l ts.
Proof.
  induction l as [|a l IH]; intros H; [exists []; constructor|].
  destruct (H a (or_introl eq_refl)) as (s & E). destruct IH as (ts & F); [intros; apply H; now right|].
  exists (s :: ts). now constructor.
Qed.
Lemma class_some (ts : list (text * text)) : ts <> [] -> exists t, classLoop ts = Some t.
Proof.
  induction ts as [|[n x] ts IH]; intros NE; [congruence|].
  destruct ts as [|e ts]; [eexists; reflexivity|].
  destruct IH as (t & E); [discriminate|]. exists (memberText n x ++ str ", " ++ t).
  change (option_map (fun t => memberText n x ++ str ", " ++ t) (classLoop (e :: ts)) = Some (memberText n x ++ str ", " ++ t)).
  now rewrite E.
Qed.
Lemma export_total : (forall k z, okK k -> exists s, onNum out k z = Some s) -> forall t v, ht t v -> exists s, ex v = Some s.
Proof.
  intros OK. induction t using pty_ind'; intros v Hv; inversion Hv; subst.
  - destruct (OK k z) as (s & E); auto. exists s. apply export_shows. now constructor.
  - eexists. apply export_shows. constructor.
  - eexists. apply export_shows. constructor.
  - eexists. apply export_shows. constructor.
  - destruct (seq_total l) as (ts & F); [eauto|]. eexists. apply export_shows. constructor. exact F.
  - destruct (seq_total l) as (ts & F); [eauto|]. eexists. apply export_shows. constructor. exact F.
  - destruct (IHt1 a) as (s1 & E1); auto. destruct (IHt2 b) as (s2 & E2); auto.
    eexists. apply export_shows. constructor; eauto.
  - destruct (seq_total l0) as (ts & F).
    + intros v Hi. apply In_nth_error in Hi. destruct Hi as (k & Ek).
      destruct (nth_error l k) as [tk|] eqn:Et; [eauto|].
      apply nth_error_None in Et. assert (k < length l0) by (apply nth_error_Some; congruence). lia.
    + eexists. apply export_shows. constructor. exact F.
  - assert (X : exists ts, Forall2 (fun m e => fst e = fst m /\ exists v, nth_error l0 (snd m) = Some v /\ ex v = Some (snd e)) ms ts).
    { assert (B : forall nm k, In (nm, k) ms -> exists v s, nth_error l0 k = Some v /\ ex v = Some s).
      { intros nm k Hi. assert (Lk : k < length l0) by eauto.
        destruct (nth_error l0 k) as [v|] eqn:Ev; [|apply nth_error_None in Ev; lia].
        destruct (nth_error l k) as [tk|] eqn:Et; [|apply nth_error_None in Et; lia].
        destruct (H k tk Et v) as (s & Es); eauto. }
      clear -B. induction ms as [|[nm k] ms IH]; [exists []; constructor|].
      destruct (B nm k (or_introl eq_refl)) as (v & s & E1 & E2).
      destruct IH as (ts & F); [intros; eapply B; right; eauto|].
      exists ((nm, s) :: ts). constructor; simpl; eauto. }
    destruct X as (ts & F). destruct (class_some ts) as (t & C).
    { intros ->. inversion F; subst. congruence. }
    eexists. apply export_shows. econstructor; eauto.
Qed.

Lemma export_agree t : forall v w, ht t v -> ht t w -> agree tr v w -> ex v = ex w.
Proof.
  assert (SEQ : forall l l' : list pval, length l = length l' ->
     (forall k a b, nth_error l k = Some a -> nth_error l' k = Some b -> ex a = ex b) -> map ex l = map ex l').
  { induction l as [|a l IH]; intros [|b l'] L A; try discriminate; auto. simpl. f_equal.
    - apply (A 0); reflexivity.
    - apply IH; [simpl in L; lia|]. intros k x y. apply (A (S k)). }
  induction t using pty_ind'; intros v w Hv Hw A; inversion Hv; subst; inversion Hw; subst; inversion A; subst; auto.
  - cbn [export]. rewrite !sel_real. f_equal. now apply real_same.
  - cbn [export]. rewrite (SEQ l l0); auto. intros k a b Ea Eb.
    apply IHt; eauto using nth_error_In.
  - cbn [export]. rewrite (SEQ l l0); auto. intros k a b Ea Eb.
    apply IHt; eauto using nth_error_In.
  - cbn [export]. rewrite (IHt1 a a0), (IHt2 b b0); auto.
  - cbn [export]. rewrite (SEQ l0 l1); auto. intros k a b Ea Eb.
    destruct (nth_error l k) as [tk|] eqn:Et; [eauto|].
    apply nth_error_None in Et. assert (k < length l0) by (apply nth_error_Some; congruence). lia.
  - assert (M : forall m, In m ms -> obind (nth_error (map ex l0) (snd m)) (fun o => option_map (pair (fst m)) o) =
                                      obind (nth_error (map ex l1) (snd m)) (fun o => option_map (pair (fst m)) o)).
    { intros [nm k] Hi. simpl. rewrite !nth_error_map.
      assert (Lk : k < length l0) by eauto.
      destruct (nth_error l0 k) as [x|] eqn:Ex; [|apply nth_error_None in Ex; lia].
      destruct (nth_error l1 k) as [y|] eqn:Ey; [|apply nth_error_None in Ey; lia].
      destruct (nth_error l k) as [tk|] eqn:Et; [|apply nth_error_None in Et; lia].
      simpl. rewrite (H k tk Et x y); eauto.
      match goal with Q1 : tr c = Some ms, Q2 : tr c = Some ?m2, Hag : forall nm k a b, In (nm, k) ?m2 -> _ |- _ =>
        rewrite Q1 in Q2; injection Q2 as <-; eapply Hag; eauto end. }
    cbn [export]. rewrite !(sel_obj tr c _ ms) by auto.
    match goal with Q1 : tr c = Some ms |- _ => rewrite Q1 end.
    f_equal. f_equal. apply map_ext_in. exact M.
Qed.
End G.

(** * JSON *)
Lemma J_int z : jtext (JNum z) (decimal z).
Proof. apply J_num, decimal_jnumber. Qed.
Lemma ws_nil : ws [].
Proof. intros c []. Qed.
Lemma ws_space : ws (str " ").
Proof. intros c [<-|[]]. now left. Qed.
Lemma ws_app a b : ws a -> ws b -> ws (a ++ b).
Proof. intros A B c H. apply in_app_or in H. destruct H; auto. Qed.
Lemma jws_l v a s : ws a -> jtext v s -> jtext v (a ++ s).
Proof. intros W J. rewrite <- (app_nil_r s). apply J_ws; auto using ws_nil. Qed.
Lemma jws_r v s b : ws b -> jtext v s -> jtext v (s ++ b).
Proof. intros W J. apply (J_ws v [] s b); auto using ws_nil. Qed.
Lemma jelems_l l a s : ws a -> jelems l s -> jelems l (a ++ s).
Proof.
  intros W J. destruct J.
  - constructor. now apply jws_l.
  - rewrite app_assoc. constructor; auto. now apply jws_l.
Qed.
Lemma jelems_r l : forall s b, ws b -> jelems l s -> jelems l (s ++ b).
Proof.
  induction l as [|v l IH]; intros s b W J; inversion J; subst.
  - constructor. now apply jws_r.
  - rewrite <- !app_assoc. constructor; auto.
Qed.
Lemma jmember_l m a s : ws a -> jmember m s -> jmember m (a ++ s).
Proof. intros W J. destruct J. rewrite app_assoc. constructor; auto using ws_app. Qed.
Lemma jmember_r m s b : ws b -> jmember m s -> jmember m (s ++ b).
Proof. intros W J. destruct J. rewrite <- !app_assoc. constructor; auto using jws_r. Qed.
Lemma jmembers_l l a s : ws a -> jmembers l s -> jmembers l (a ++ s).
Proof.
  intros W J. destruct J.
  - constructor. now apply jmember_l.
  - rewrite app_assoc. constructor; auto. now apply jmember_l.
Qed.
Lemma jmembers_r l : forall s b, ws b -> jmembers l s -> jmembers l (s ++ b).
Proof.
  induction l as [|v l IH]; intros s b W J; inversion J; subst.
  - constructor. now apply jmember_r.
  - rewrite <- !app_assoc. constructor; auto.
Qed.

Lemma plain_jchars s : jsonPlain s -> jchars s s.
Proof.
  induction s as [|c s IH]; intros P; [constructor|].
  destruct (P c (or_introl eq_refl)) as (A & B & C). constructor; auto. apply IH. intros x Hx. apply P. now right.
Qed.
Lemma plain_jstring s : jsonPlain s -> jstring s ([""""%char] ++ s ++ [""""%char]).
Proof. intros P. exists s. split; auto using plain_jchars. Qed.

Lemma iter_jelems js ts : Forall2 jtext js ts -> js <> [] -> jelems js (iterLoop ts).
Proof.
  induction 1 as [|j t js ts J F IH]; intros NE; [congruence|].
  cbn [iterLoop]. destruct F as [|j' t' js ts J' F].
  - cbn [iterLoop]. rewrite !app_nil_r. now constructor.
  - change (str ", ") with ([","%char] ++ str " "). rewrite <- app_assoc. constructor; auto.
    apply jelems_l; [apply ws_space|]. apply IH. discriminate.
Qed.
Lemma list_json js ts cl : Forall2 jtext js ts -> cl = str " " \/ cl = [] ->
  jtext (JArr js) (str "[ " ++ iterLoop ts ++ cl ++ ["]"%char]).
Proof.
  intros F C. assert (W : ws cl) by (destruct C as [-> | ->]; auto using ws_space, ws_nil).
  destruct F as [|j t js ts J F].
  - cbn [iterLoop app]. apply (J_arr0 (str " " ++ cl)). auto using ws_app, ws_space.
  - change (str "[ ") with ("["%char :: str " "). cbn [app].
    replace (str " " ++ iterLoop (t :: ts) ++ cl ++ ["]"%char]) with ((str " " ++ iterLoop (t :: ts) ++ cl) ++ ["]"%char]) by now rewrite <- !app_assoc.
    apply J_arr. apply jelems_l; [apply ws_space|]. apply jelems_r; auto.
    apply iter_jelems; [now constructor|discriminate].
Qed.
Lemma member_json nm j x : jsonPlain nm -> jtext j x -> jmember (nm, j) (memberText nm x).
Proof.
  intros P J. unfold memberText.
  replace ([""""%char] ++ nm ++ str """ : " ++ x) with
    ([] ++ ([""""%char] ++ nm ++ [""""%char]) ++ str " " ++ [":"%char] ++ (str " " ++ x)) by (rewrite <- !app_assoc; reflexivity).
  constructor; auto using ws_nil, ws_space, plain_jstring. apply jws_l; auto using ws_space.
Qed.
Lemma class_json : forall (es : list (text * jv)) (ts : list (text * text)) t,
  Forall2 (fun e m => fst e = fst m /\ jsonPlain (fst m) /\ jtext (snd e) (snd m)) es ts ->
  classLoop ts = Some t -> jmembers es t.
Proof.
  induction es as [|[k j] es IH]; intros ts t F C; inversion F as [|? [nm x] ? ts0 (E & P & J) F0]; subst; [discriminate|].
  cbn [fst snd] in *. subst k.
  destruct ts0 as [|e ts0].
  - inversion F0; subst. injection C as <-. constructor. now apply member_json.
  - change (option_map (fun t => memberText nm x ++ str ", " ++ t) (classLoop (e :: ts0)) = Some t) in C.
    destruct (classLoop (e :: ts0)) as [t0|] eqn:Q; [|discriminate].
    assert (C1 : memberText nm x ++ str ", " ++ t0 = t) by (cbn [option_map] in C; congruence). subst t.
    inversion F0; subst.
    change (str ", ") with ([","%char] ++ str " "). rewrite <- app_assoc. constructor; [now apply member_json|].
    apply jmembers_l; [apply ws_space|]. eapply IH; eauto.
Qed.

Section J.
Variables (tr : nat -> option (list (text * nat))) (okK : ikind -> Prop).
Hypothesis names : forall c ms nm i, tr c = Some ms -> In (nm, i) ms -> jsonPlain nm.
Local Notation ex := (export stream tr).

Lemma f2_json (l : list pval) js ts :
  (forall k v j s, nth_error l k = Some v -> jsonOf tr v j -> ex v = Some s -> jtext j s) ->
  Forall2 (jsonOf tr) l js -> Forall2 (fun v t => ex v = Some t) l ts -> Forall2 jtext js ts.
Proof.
  intros H F. revert ts H. induction F as [|v j l js D F IH]; intros ts H F2; inversion F2; subst; constructor.
  - apply (H 0 v); auto.
  - apply IH; auto. intros k. apply (H (S k)).
Qed.
Lemma f2_json_ms (l : list pval) ms : forall (js : list (text * jv)) (ts : list (text * text)),
  (forall nm k, In (nm, k) ms -> jsonPlain nm) ->
  (forall k v j s, nth_error l k = Some v -> jsonOf tr v j -> ex v = Some s -> jtext j s) ->
  Forall2 (fun (m : text * nat) e => fst e = fst m /\ exists v, nth_error l (snd m) = Some v /\ jsonOf tr v (snd e)) ms js ->
  Forall2 (fun m e => fst e = fst m /\ exists v, nth_error l (snd m) = Some v /\ ex v = Some (snd e)) ms ts ->
  Forall2 (fun (e : text * jv) (m : text * text) => fst e = fst m /\ jsonPlain (fst m) /\ jtext (snd e) (snd m)) js ts.
Proof.
  induction ms as [|[nm k] ms IH]; intros js ts P H F1 F2; inversion F1 as [|? [k1 j] ? js0 (E1 & v & Ev & D) F10]; subst;
    inversion F2 as [|? [k2 x] ? ts0 (E2 & w & Ew & X) F20]; subst; constructor; cbn [fst snd] in *.
  - subst. splits; auto; [eapply P; now left|]. assert (w = v) by congruence. subst w. eauto.
  - apply IH; auto. intros nm' k' Hi. eapply P. right. eauto.
Qed.
Lemma export_json t : forall v j s, hasTy tr okK jsonPlain t v -> jsonOf tr v j -> ex v = Some s -> jtext j s.
Proof using names.
  induction t using pty_ind'; intros v j s Hv D E; apply export_shows in E; inversion Hv; subst; inversion D; subst; inversion E; subst.
  - match goal with H : onNum _ _ _ = _ |- _ => injection H as <- end. apply J_int.
  - cbn [realText]. apply J_num, putQ_jnumber.
  - apply J_num, negzero_jnumber.
  - destruct b; constructor.
  - apply J_str. now apply plain_jstring.
  - change (str " ]") with (str " " ++ ["]"%char]). apply list_json; auto.
    eapply f2_json; eauto. intros k v j s Ek. apply IHt. eauto using nth_error_In.
  - change (str " ]") with (str " " ++ ["]"%char]). apply list_json; auto.
    eapply f2_json; eauto. intros k v j s Ek. apply IHt. eauto using nth_error_In.
  - match goal with H : ex (PText ?k) = Some _ |- _ => apply export_shows in H; inversion H; subst end.
    match goal with H : hasTy _ _ _ _ (PText _) |- _ => inversion H; subst end.
    change (str "{ ") with ("{"%char :: str " ").
    replace (("{"%char :: str " ") ++ onText stream k ++ str ": " ++ tb ++ str "}") with
      ("{"%char :: (str " " ++ onText stream k ++ [] ++ [":"%char] ++ (str " " ++ tb)) ++ ["}"%char])
      by (cbn [app]; rewrite <- !app_assoc; reflexivity).
    apply J_obj. constructor. constructor; auto using ws_space, ws_nil.
    + now apply plain_jstring.
    + apply jws_l; [apply ws_space|]. eauto.
  - change (str "]") with ([] ++ ["]"%char]). apply list_json; auto.
    eapply f2_json; eauto. intros k v j s Ek. destruct (nth_error l k) as [tk|] eqn:Et.
    + apply (H k tk Et). eauto.
    + apply nth_error_None in Et. assert (k < length l0) by (apply nth_error_Some; congruence). lia.
  - repeat match goal with Q : tr c = Some ?m, Q' : tr c = Some ?m' |- _ =>
      lazymatch m with m' => fail | _ => assert (m' = m) by congruence; subst m' end end.
    assert (F : Forall2 (fun (e : text * jv) (m : text * text) => fst e = fst m /\ jsonPlain (fst m) /\ jtext (snd e) (snd m)) js ts).
    { eapply f2_json_ms; eauto.
      intros k v j s Ek. destruct (nth_error l k) as [tk|] eqn:Et.
      + apply (H k tk Et). eauto.
      + apply nth_error_None in Et. assert (k < length l0) by (apply nth_error_Some; congruence). lia. }
    match goal with C : classLoop ts = Some _ |- _ => pose proof (class_json _ _ _ F C) as J end.
    change (str "{ ") with ("{"%char :: str " ").
    replace (("{"%char :: str " ") ++ t ++ str " }") with ("{"%char :: (str " " ++ t ++ str " ") ++ ["}"%char])
      by (cbn [app]; rewrite <- !app_assoc; reflexivity).
    destruct js as [|e js]; [inversion J|]. apply J_obj. apply jmembers_l; [apply ws_space|]. apply jmembers_r; auto using ws_space.
Qed.
End J.

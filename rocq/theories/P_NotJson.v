(** Texts of variables without a JSON value are not JSON. *)
From Coq Require Import String Ascii ZArith QArith Lia.
From Verif Require Import Base P_Base M_Traits M_Print M_Log P_Stream S_Json P_JNum S_Print S_Log P_Print P_Json P_JsonParse P_Log M_Overload S_Overload P_Overload.
Local Open Scope list_scope.
Local Open Scope nat_scope.

Local Notation jnd := P_JsonParse.nd.
(** No value can be read where [s] starts. *)
Definition BV (s : text) : Prop := forall rest k, jnd rest -> 2 * length (s ++ rest) + 5 <= k -> pv k (s ++ rest) = None.
Lemma BV_unread s : BV s -> unread s.
Proof. intros B rest k K. apply B; auto. reflexivity. Qed.
Lemma BV_not_json s j : BV s -> ~ jtext j s.
Proof.
  intros B J. pose proof (proj1 (proj1 parse_all j s J) [] I (2 * length (s ++ []) + 5)) as Q.
  rewrite B in Q; [|exact I|lia]. rewrite app_nil_r in Q. discriminate Q. lia.
Qed.
Lemma inf_BV neg : BV ((if neg : bool then str "-" else []) ++ str "inf").
Proof. intros rest k _ K. destruct k as [|k]; [lia|]. destruct neg; reflexivity. Qed.
Lemma nan_BV neg : BV ((if neg : bool then str "-" else []) ++ str "nan").
Proof. intros rest k _ K. destruct k as [|k]; [lia|]. destruct neg; reflexivity. Qed.

(** The first character of a text. *)
Definition head_ok (v : pval) (s : text) : Prop :=
  exists c r, s = c :: r /\ isws c = false /\ c <> "]"%char /\ c <> "}"%char /\ (c = """"%char -> exists x, v = PText x).
Lemma real_char_ok c : isReal c = true -> isws c = false /\ c <> "]"%char /\ c <> "}"%char /\ c <> """"%char.
Proof.
  intros H. apply existsb_exists in H as (d & Hd & E). apply Ascii.eqb_eq in E. subst d. cbn in Hd.
  repeat (destruct Hd as [<-|Hd]; [repeat apply conj; (reflexivity || discriminate)|]). destruct Hd.
Qed.
Lemma head_num v s : (exists c r, s = c :: r) -> (forall c, In c s -> isReal c = true) -> head_ok v s.
Proof.
  intros (c & r & ->) H. destruct (real_char_ok c (H c (or_introl eq_refl))) as (A & B & C & D).
  exists c, r. splits; auto. intros E. congruence.
Qed.
Section N.
Variables (tr : nat -> option (list (text * nat))) (okK : ikind -> Prop).
Hypothesis names : forall c ms nm i, tr c = Some ms -> In (nm, i) ms -> jsonPlain nm.
Local Notation ex := (export stream tr).

Lemma ex_head_ok v s : ex v = Some s -> head_ok v s.
Proof.
  intros E. apply export_shows in E. destruct E; try (eexists _, _; split; [reflexivity|splits; (reflexivity || discriminate)]).
  - injection H as <-. apply head_num; [destruct (digits_head z) as (c & r & -> & _); eauto|apply digits_chars].
  - apply head_num; [destruct (real_head x) as (c & r & -> & _); eauto|apply real_chars].
  - destruct b; eexists _, _; (split; [reflexivity|splits; (reflexivity || discriminate)]).
  - cbn. eexists _, _. split; [reflexivity|]. splits; try reflexivity; try discriminate. eauto.
Qed.

Lemma skip_sp s : skipws (" "%char :: s) = skipws s. Proof. reflexivity. Qed.
Lemma pes_sp k s : pes k (" "%char :: s) = pes k s.
Proof. rewrite <- pes_ws, skip_sp, pes_ws. reflexivity. Qed.
Lemma pms_sp k s : pms k (" "%char :: s) = pms k s.
Proof. rewrite <- pms_ws, skip_sp, pms_ws. reflexivity. Qed.
Lemma iter_nd ts rest : jnd rest -> jnd ((match ts with [] => [] | _ => str ", " end) ++ iterLoop ts ++ rest).
Proof. destruct ts; cbn; auto. Qed.

Lemma iter_bad js : forall ta tv tb rest k, Forall2 jtext js ta -> BV tv -> jnd rest ->
  2 * length (iterLoop (ta ++ tv :: tb) ++ rest) + 6 <= k -> pes k (iterLoop (ta ++ tv :: tb) ++ rest) = None.
Proof.
  induction js as [|j js IH]; intros ta tv tb rest k F B N K; inversion F as [|? t ? ta0 Jt F0]; subst.
  - cbn [app iterLoop] in *. rewrite <- !app_assoc in *. destruct k as [|k]; [lia|]. cbn [pes].
    rewrite B; [reflexivity|now apply iter_nd|lia].
  - cbn [app iterLoop] in *. rewrite <- !app_assoc in *. destruct k as [|k]; [lia|].
    assert (E : match ta0 ++ tv :: tb with [] => [] | _ => str ", " end = str ", ") by (destruct ta0; reflexivity).
    rewrite E in *. cbn [pes]. rewrite (pv_text j t); auto; [|reflexivity|rewrite app_length in K; lia].
    change (str ", " ++ iterLoop (ta0 ++ tv :: tb) ++ rest) with (","%char :: " "%char :: iterLoop (ta0 ++ tv :: tb) ++ rest) in *.
    rewrite skipws_self by reflexivity. change (Ascii.eqb "," ",") with true. cbv iota. rewrite pes_sp.
    rewrite IH; auto. rewrite app_length in K. cbn [length] in K. lia.
Qed.
Lemma list_bad ts js ta tv tb v cl : Forall2 jtext js ta -> BV tv -> ts = ta ++ tv :: tb ->
  (exists t0 r0 v0, ts = t0 :: r0 /\ head_ok v0 t0) -> cl = str " " \/ cl = [] ->
  v = str "[ " ++ iterLoop ts ++ cl ++ ["]"%char] -> BV v.
Proof.
  intros F B E (t0 & r0 & v0 & E0 & c & r & Et & W & Nb & _) C -> rest k N K.
  destruct k as [|k]; [lia|]. rewrite <- !app_assoc in *. change (str "[ ") with ("["%char :: str " ") in *. cbn [app] in *. change (str " ") with [" "%char] in *. cbn [app] in *.
  cbn [pv]. rewrite skipws_self by reflexivity.
  change (Ascii.eqb "[" """") with false. change (Ascii.eqb "[" "t") with false. change (Ascii.eqb "[" "f") with false.
  change (Ascii.eqb "[" "[") with true. cbv iota. rewrite skip_sp.
  assert (X : exists r', iterLoop ts ++ cl ++ "]"%char :: rest = c :: r') by (rewrite E0, Et; cbn; eauto).
  destruct X as (r' & X).
  assert (P : pes k (iterLoop ts ++ cl ++ "]"%char :: rest) = None).
  { subst ts. apply (iter_bad js); auto.
    - destruct C as [-> | ->]; reflexivity.
    - cbn [length] in K. lia. }
  rewrite X in *. rewrite skipws_self by auto. rewrite (proj2 (Ascii.eqb_neq _ _) Nb), P. reflexivity.
Qed.

Lemma pms_member m s rest k : jmember m s -> 2 * length s + 2 <= S k ->
  pms (S k) (s ++ ","%char :: rest) = option_map (fun x => (m :: fst x, snd x)) (pms k rest).
Proof.
  intros J K. destruct (proj2 (proj2 (proj2 parse_all)) m s J) as (P & _).
  destruct (P (","%char :: rest) k K eq_refl) as (s1 & s2 & s3 & E1 & E2 & E3 & E4). cbn [pms]. rewrite E1.
  change (negb (Ascii.eqb """" """")) with false. cbv iota. rewrite E2, E3. change (negb (Ascii.eqb ":" ":")) with false. cbv iota. rewrite E4.
  rewrite skipws_self by reflexivity. change (Ascii.eqb "," ",") with true. cbv iota. destruct m. reflexivity.
Qed.
Lemma pms_bad_value k nm x (gap rest : text) : jsonPlain nm -> BV x -> jnd rest -> gap = str " : " \/ gap = str ": " ->
  2 * length (x ++ rest) + 6 <= k -> pms k (([""""%char] ++ nm ++ [""""%char]) ++ gap ++ x ++ rest) = None.
Proof.
  intros P B N G K. destruct k as [|k]; [lia|]. cbn [pms]. cbn [app]. rewrite skipws_self by reflexivity.
  change (negb (Ascii.eqb """" """")) with false. cbv iota. rewrite <- app_assoc. rewrite (pstr_spec nm nm _ (plain_jchars nm P)).
  assert (E : skipws (gap ++ x ++ rest) = ":"%char :: str " " ++ x ++ rest) by (destruct G as [-> | ->]; reflexivity).
  rewrite E. change (negb (Ascii.eqb ":" ":")) with false. cbv iota. rewrite pv_ws by exact ws_space. rewrite B; [reflexivity|auto|lia].
Qed.
Lemma class_bad es : forall ta nm x tb t rest k,
  Forall2 (fun (e : text * jv) (m : text * text) => fst e = fst m /\ jsonPlain (fst m) /\ jtext (snd e) (snd m)) es ta ->
  jsonPlain nm -> BV x -> jnd rest -> classLoop (ta ++ (nm, x) :: tb) = Some t ->
  2 * length (t ++ rest) + 6 <= k -> pms k (t ++ rest) = None.
Proof.
  induction es as [|[ke je] es IH]; intros ta nm x tb t rest k F P B N C K; inversion F as [|? [n1 x1] ? ta0 (E & P1 & J1) F0]; subst.
  - cbn [app classLoop] in C. assert (X : exists y, t ++ rest = ([""""%char] ++ nm ++ [""""%char]) ++ str " : " ++ x ++ y /\ jnd y).
    { destruct tb as [|e tb].
      - injection C as <-. exists rest. split; auto. unfold memberText. rewrite <- !app_assoc. reflexivity.
      - destruct (classLoop (e :: tb)) as [t0|]; [|discriminate].
        assert (C1 : memberText nm x ++ str ", " ++ t0 = t) by (cbn [option_map] in C; congruence). subst t.
        exists (str ", " ++ t0 ++ rest). split; [|reflexivity]. unfold memberText. rewrite <- !app_assoc. reflexivity. }
    destruct X as (y & X & Ny). rewrite X in *. apply pms_bad_value; auto.
    repeat (rewrite ?app_length in K; cbn [length] in K). rewrite app_length. lia.
  - cbn [fst snd] in *. subst ke. cbn [app classLoop] in C.
    destruct (ta0 ++ (nm, x) :: tb) as [|e l0] eqn:Q; [destruct ta0; discriminate|].
    destruct (classLoop (e :: l0)) as [t0|] eqn:Q2; [|discriminate].
    assert (C1 : memberText n1 x1 ++ str ", " ++ t0 = t) by (cbn [option_map] in C; congruence). subst t.
    rewrite <- !app_assoc in *. change (str ", " ++ t0 ++ rest) with (","%char :: " "%char :: t0 ++ rest) in *.
    destruct k as [|k]; [lia|].
    rewrite (pms_member (n1, je)); [|now apply member_json|rewrite app_length in K; lia].
    rewrite pms_sp. rewrite (IH ta0 nm x tb t0 rest k); auto; [now rewrite Q|].
    rewrite app_length in K. cbn [length] in K. lia.
Qed.

(** All elements have JSON values, or there is a first one that has none. *)
Lemma split_json (l : list pval) ts :
  (forall k v s, nth_error l k = Some v -> ex v = Some s -> (exists j, jsonOf tr v j /\ jtext j s) \/ BV s) ->
  Forall2 (fun v t => ex v = Some t) l ts ->
  (exists js, Forall2 (jsonOf tr) l js) \/ exists js ta tv tb, Forall2 jtext js ta /\ BV tv /\ ts = ta ++ tv :: tb.
Proof.
  intros H F. revert H. induction F as [|v t l ts E F IH]; intros H.
  - left. exists []. constructor.
  - destruct (H 0 v t eq_refl E) as [(j & D & J)|B].
    + destruct IH as [(js & FJ)|(js & ta & tv & tb & A1 & A2 & ->)].
      * intros k. apply (H (S k)).
      * left. exists (j :: js). now constructor.
      * right. exists (j :: js), (t :: ta), tv, tb. splits; auto.
    + right. exists [], [], t, ts. splits; auto.
Qed.
Lemma split_members (l : list pval) ms : forall ts : list (text * text),
  (forall nm k, In (nm, k) ms -> jsonPlain nm) ->
  (forall k v s, nth_error l k = Some v -> ex v = Some s -> (exists j, jsonOf tr v j /\ jtext j s) \/ BV s) ->
  Forall2 (fun (m : text * nat) e => fst e = fst m /\ exists v, nth_error l (snd m) = Some v /\ ex v = Some (snd e)) ms ts ->
  (exists js : list (text * jv), Forall2 (fun (m : text * nat) e => fst e = fst m /\ exists v, nth_error l (snd m) = Some v /\ jsonOf tr v (snd e)) ms js) \/
  exists es ta nm x tb, Forall2 (fun (e : text * jv) (m : text * text) => fst e = fst m /\ jsonPlain (fst m) /\ jtext (snd e) (snd m)) es ta /\
    jsonPlain nm /\ BV x /\ ts = ta ++ (nm, x) :: tb.
Proof.
  induction ms as [|[nm k] ms IH]; intros ts P H F; inversion F as [|? [n1 x] ? ts0 (E1 & v & Ev & Ex) F0]; subst.
  - left. exists []. constructor.
  - cbn [fst snd] in *. subst n1. assert (Pn : jsonPlain nm) by (eapply P; now left). destruct (H k v x Ev Ex) as [(j & D & J)|B].
    + destruct (IH ts0) as [(js & FJ)|(es & ta & nm' & x' & tb & A1 & A2 & A3 & ->)]; auto.
      * intros nm' k' Hi. eapply P. right. eauto.
      * left. exists ((nm, j) :: js). constructor; auto. split; [reflexivity|]. eauto.
      * right. exists ((nm, j) :: es), ((nm, x) :: ta), nm', x', tb. splits; auto.
    + right. exists [], [], nm, x, ts0. splits; auto.
Qed.

Lemma json_or_bad t : forall v s, hasTy tr okK jsonPlain t v -> ex v = Some s -> (exists j, jsonOf tr v j /\ jtext j s) \/ BV s.
Proof using names.
  assert (OK : forall t v s, hasTy tr okK jsonPlain t v -> ex v = Some s -> (exists j, jsonOf tr v j) \/ BV s -> (exists j, jsonOf tr v j /\ jtext j s) \/ BV s).
  { intros t0 v s Hv E [(j & D)|B]; auto. left. exists j. split; auto. eapply export_json; eauto. }
  assert (SEQ : forall l ts (cl : text), (forall k v s, nth_error l k = Some v -> ex v = Some s -> (exists j, jsonOf tr v j /\ jtext j s) \/ BV s) ->
     Forall2 (fun v t => ex v = Some t) l ts -> cl = str " " \/ cl = [] ->
     (exists js, Forall2 (jsonOf tr) l js) \/ BV (str "[ " ++ iterLoop ts ++ cl ++ ["]"%char])).
  { intros l ts cl H F C. destruct (split_json l ts H F) as [X|(js & ta & tv & tb & F1 & B & E)]; [now left|right].
    eapply list_bad; eauto. destruct F as [|v0 t0 l0 ts0 E0 F0]; [destruct ta; discriminate E|].
    exists t0, ts0, v0. split; auto. now apply ex_head_ok. }
  induction t using pty_ind'; intros v s Hv E; eapply OK; eauto; apply export_shows in E; inversion Hv; subst; inversion E; subst.
  - left. eexists. constructor.
  - destruct x as [q| |neg|neg]; [left; eexists; constructor|left; eexists; constructor|right; apply inf_BV|right; apply nan_BV].
  - left. eexists. constructor.
  - left. eexists. constructor.
  - change (str " ]") with (str " " ++ ["]"%char]). edestruct (SEQ l ts (str " ")) as [(js & F)|B]; eauto.
    + intros k v s Ek. apply IHt. eauto using nth_error_In.
    + left. eexists. constructor. exact F.
  - change (str " ]") with (str " " ++ ["]"%char]). edestruct (SEQ l ts (str " ")) as [(js & F)|B]; eauto.
    + intros k v s Ek. apply IHt. eauto using nth_error_In.
    + left. eexists. constructor. exact F.
  - match goal with Ea : ex a = Some ta, Eb : ex b = Some tb, Tb : hasTy _ _ _ t2 b |- _ =>
      pose proof (ex_head_ok a ta Ea) as (c & r & Ec & Wc & Nc1 & Nc2 & Qc); destruct (IHt2 b tb Tb Eb) as [(j & D & _)|B]; pose proof Ea as Ea' end.
    + destruct (Ascii.eqb_spec c """"%char) as [Eq|Nq].
      * left. destruct (Qc Eq) as (x & ->). eexists. constructor. exact D.
      * right. intros rest k N K. destruct k as [|k]; [lia|].
        change (str "{ ") with ("{"%char :: str " "). cbn [app]. cbn [pv]. rewrite skipws_self by reflexivity.
        change (Ascii.eqb "{" """") with false. change (Ascii.eqb "{" "t") with false. change (Ascii.eqb "{" "f") with false.
        change (Ascii.eqb "{" "[") with false. change (Ascii.eqb "{" "{") with true. cbv iota. change (str " ") with [" "%char]. cbn [app]. rewrite skip_sp.
        rewrite Ec. cbn [app]. rewrite skipws_self by auto. rewrite (proj2 (Ascii.eqb_neq _ _) Nc2).
        destruct k as [|k]; [reflexivity|]. cbn [pms]. rewrite skipws_self by auto. rewrite (proj2 (Ascii.eqb_neq _ _) Nq). reflexivity.
    + right. intros rest k N K. destruct k as [|k]; [lia|].
      change (str "{ ") with ("{"%char :: str " ") in *. cbn [app] in *. cbn [pv]. rewrite skipws_self by reflexivity.
      change (Ascii.eqb "{" """") with false. change (Ascii.eqb "{" "t") with false. change (Ascii.eqb "{" "f") with false.
      change (Ascii.eqb "{" "[") with false. change (Ascii.eqb "{" "{") with true. cbv iota. change (str " ") with [" "%char]. cbn [app]. rewrite skip_sp.
      rewrite Ec. cbn [app]. rewrite skipws_self by auto. rewrite (proj2 (Ascii.eqb_neq _ _) Nc2).
      destruct (Ascii.eqb_spec c """"%char) as [Eq|Nq].
      * destruct (Qc Eq) as (x & ->). cbn in Ea'. injection Ea' as Ea'.
        match goal with H : hasTy _ _ _ _ (PText _) |- _ => inversion H; subst end.
        match goal with |- option_map _ (pms _ ?y) = _ =>
          replace y with (([""""%char] ++ x ++ [""""%char]) ++ str ": " ++ tb ++ (str "}" ++ rest)) by (cbn [app]; injection Ea' as <-; rewrite <- !app_assoc; reflexivity) end.
        rewrite pms_bad_value; auto.
        repeat (rewrite ?app_length in K; cbn [length] in K). repeat (rewrite ?app_length; cbn [length]). change (length (str "}")) with 1 in *. lia.
      * destruct k as [|k]; [reflexivity|]. cbn [pms]. rewrite skipws_self by auto. rewrite (proj2 (Ascii.eqb_neq _ _) Nq). reflexivity.
  - change (str "]") with ([] ++ ["]"%char]). edestruct (SEQ l0 ts []) as [(js & F)|B]; eauto.
    + intros k v s Ek. destruct (nth_error l k) as [tk|] eqn:Et.
      * apply (H k tk Et). eauto.
      * apply nth_error_None in Et. assert (k < length l0) by (apply nth_error_Some; congruence). lia.
    + left. eexists. constructor. exact F.
  - repeat match goal with Q : tr c = Some ?m, Q' : tr c = Some ?m' |- _ =>
      lazymatch m with m' => fail | _ => assert (m' = m) by congruence; subst m' end end.
    match goal with F : Forall2 _ ms ts |- _ => destruct (split_members l0 ms ts) as [(js & FJ)|(es & ta & nm & x & tb & F1 & P & B & Ets)]; auto end.
    + intros nm k Hi. eapply names; eauto.
    + intros k v s Ek. destruct (nth_error l k) as [tk|] eqn:Et.
      * apply (H k tk Et). eauto.
      * apply nth_error_None in Et. assert (k < length l0) by (apply nth_error_Some; congruence). lia.
    + left. eexists. econstructor; eauto.
    + right. subst ts. intros rest k N K. destruct k as [|k]; [lia|].
      assert (Q : exists r', t = """"%char :: r').
      { match goal with C : classLoop _ = Some t |- _ => revert C end. destruct ta as [|[n1 x1] ta]; cbn [app classLoop].
        - destruct tb; [intros C; injection C as <-; unfold memberText; cbn; eauto|].
          destruct (classLoop _); [|discriminate]. cbn [option_map]. intros C. unfold memberText in C. cbn in C. apply (f_equal (fun o => match o with Some z => z | None => [] end)) in C. cbv beta iota in C. subst t. eauto.
        - destruct (ta ++ (nm, x) :: tb); [intros C; injection C as <-; unfold memberText; cbn; eauto|].
          destruct (classLoop _); [|discriminate]. cbn [option_map]. intros C. unfold memberText in C. cbn in C. apply (f_equal (fun o => match o with Some z => z | None => [] end)) in C. cbv beta iota in C. subst t. eauto. }
      destruct Q as (r' & Q).
      change (str "{ ") with ("{"%char :: str " ") in *. cbn [app] in *. cbn [pv]. rewrite skipws_self by reflexivity.
      change (Ascii.eqb "{" """") with false. change (Ascii.eqb "{" "t") with false. change (Ascii.eqb "{" "f") with false.
      change (Ascii.eqb "{" "[") with false. change (Ascii.eqb "{" "{") with true. cbv iota. change (str " ") with [" "%char] in *. cbn [app] in *. rewrite skip_sp.
      assert (PM0 : pms k (t ++ (str " }" ++ rest)) = None).
      { eapply (class_bad es ta nm x tb t); eauto; [reflexivity|]. rewrite <- !app_assoc in K. cbn [length] in K. lia. }
      rewrite <- !app_assoc. rewrite Q in *. cbn [app] in *. rewrite skipws_self by reflexivity. change (Ascii.eqb """" "}") with false. cbv iota.
      rewrite PM0. reflexivity.
Qed.
End N.

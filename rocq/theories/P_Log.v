From Coq Require Import String Ascii ZArith Lia.
From Verif Require Import Base P_Base M_Print M_Log S_Json S_Print S_Log P_Print P_Json.
Local Open Scope list_scope.

(** * Backslashes *)
Lemma htmlEscape_doubled s : htmlEscape s = doubled s.
Proof.
  induction s as [|c s IH]; auto. cbn [htmlEscape doubled]. rewrite IH.
  destruct (Ascii.eqb_spec c "\"%char), (ascii_dec c "\"%char); try congruence; reflexivity.
Qed.
Lemma findFrom_none s : forall p, findFrom s p = None -> ~ In "\"%char (skipn p s).
Proof.
  induction s as [|c s IH]; intros p E; [destruct p; auto|].
  destruct p as [|p]; cbn [findFrom] in E.
  - destruct (Ascii.eqb_spec c "\"%char); [discriminate|].
    destruct (findFrom s 0) eqn:Q; [discriminate|]. intros [H|H]; [congruence|]. exact (IH 0 Q H).
  - destruct (findFrom s p) eqn:Q; [discriminate|]. exact (IH p Q).
Qed.
Lemma findFrom_some s : forall p q, findFrom s p = Some q -> p <= q /\
  exists mid rest, skipn p s = mid ++ "\"%char :: rest /\ ~ In "\"%char mid /\ length mid = q - p /\
    firstn q s = firstn p s ++ mid /\ skipn (q + 1) s = rest /\ length (firstn p s) = p.
Proof.
  induction s as [|c s IH]; intros p q E; [destruct p; discriminate|].
  destruct p as [|p]; cbn [findFrom] in E.
  - destruct (Ascii.eqb_spec c "\"%char) as [->|N].
    + injection E as <-. split; [lia|]. exists [], s. splits; auto.
    + destruct (findFrom s 0) as [q'|] eqn:Q; [|discriminate]. injection E as <-.
      destruct (IH 0 q' Q) as (_ & mid & rest & H1 & H2 & H3 & H4 & H5 & _). split; [lia|].
      exists (c :: mid), rest. cbn [skipn firstn app] in *. splits; auto.
      * now rewrite H1.
      * intros [H|H]; auto.
      * simpl. rewrite H3. lia.
      * now rewrite H4.
  - destruct (findFrom s p) as [q'|] eqn:Q; [|discriminate]. injection E as <-.
    destruct (IH p q' Q) as (L & mid & rest & H1 & H2 & H3 & H4 & H5 & H6). split; [lia|].
    exists mid, rest. cbn [skipn firstn app Nat.add] in *. splits; auto.
    + now rewrite H4.
    + simpl. now rewrite H6.
Qed.
Lemma doubled_id s : ~ In "\"%char s -> doubled s = s.
Proof.
  induction s as [|c s IH]; intros H; auto. cbn [doubled]. destruct (ascii_dec c "\"%char) as [->|].
  - exfalso. apply H. now left.
  - rewrite IH; auto. intros Q. apply H. now right.
Qed.
Lemma doubled_app a b : doubled (a ++ b) = doubled a ++ doubled b.
Proof. induction a as [|c a IH]; auto. cbn [doubled app]. destruct (ascii_dec c "\"%char); cbn [app]; now rewrite IH. Qed.

Lemma dbsLoop_spec fuel : forall s pos, length (skipn (pos + 2) s) <= fuel ->
  dbsLoop fuel s pos = Ok (firstn (pos + 2) s ++ doubled (skipn (pos + 2) s)).
Proof.
  induction fuel as [|fuel IH]; intros s pos L.
  - cbn [dbsLoop]. destruct (findFrom s (pos + 2)) as [q|] eqn:Q.
    + destruct (findFrom_some _ _ _ Q) as (_ & mid & rest & H1 & _). exfalso.
      rewrite H1, app_length in L. simpl in L. lia.
    + rewrite doubled_id by now apply findFrom_none. now rewrite firstn_skipn.
  - cbn [dbsLoop]. destruct (findFrom s (pos + 2)) as [q|] eqn:Q.
    + destruct (findFrom_some _ _ _ Q) as (Lq & mid & rest & H1 & H2 & H3 & H4 & H5 & H6).
      set (s' := firstn q s ++ ["\"; "\"]%char ++ skipn (q + 1) s).
      assert (Lf : length (firstn q s) = q).
      { rewrite H4, app_length, H6, H3. lia. }
      assert (F : firstn (q + 2) s' = firstn q s ++ ["\"; "\"]%char).
      { unfold s'. rewrite firstn_app, Lf. replace (q + 2 - q) with 2 by lia.
        rewrite firstn_all2 by lia. reflexivity. }
      assert (K : skipn (q + 2) s' = rest).
      { unfold s'. rewrite skipn_app, Lf. replace (q + 2 - q) with 2 by lia.
        rewrite skipn_all2 by lia. cbn [skipn app]. exact H5. }
      rewrite IH.
      * rewrite F, K, H1, doubled_app, (doubled_id mid H2). cbn [doubled].
        destruct (ascii_dec "\" "\"); [|congruence]. rewrite H4, <- !app_assoc. reflexivity.
      * rewrite K. rewrite H1, app_length in L. simpl in L. lia.
    + rewrite doubled_id by now apply findFrom_none. now rewrite firstn_skipn.
Qed.
Lemma dbs_spec s : doubleBackSlash s = Ok (firstn 2 s ++ doubled (skipn 2 s)).
Proof. unfold doubleBackSlash. apply (dbsLoop_spec (length s) s 0). rewrite skipn_length. lia. Qed.
Lemma firstn_doubled s : (forall i, i < 2 -> nth_error s i <> Some "\"%char) -> firstn 2 s ++ doubled (skipn 2 s) = doubled s.
Proof.
  intros H. transitivity (doubled (firstn 2 s ++ skipn 2 s)); [|now rewrite firstn_skipn].
  rewrite doubled_app. f_equal. symmetry. apply doubled_id.
  destruct s as [|a [|b s]]; cbn [firstn].
  - auto.
  - intros [Q|[]]. apply (H 0); [lia|]. now subst.
  - intros [Q|[Q|[]]]; [apply (H 0)|apply (H 1)]; try lia; now subst.
Qed.

(** * JSON strings written by the logger *)
Lemma file_jchars s : printable s -> ~ In """"%char s -> jchars s (doubled s).
Proof.
  induction s as [|c s IH]; intros P N; [constructor|]. cbn [doubled].
  assert (J : jchars s (doubled s)). { apply IH; [intros x Hx; apply P; now right|intros Q; apply N; now right]. }
  destruct (ascii_dec c "\"%char) as [->|NB]; [now apply JC_back|apply JC_plain; auto].
  - apply P. now left.
  - intros Q. apply N. left. exact Q.
Qed.
Lemma quoted_jstring s : printable s -> jstring s (quoted s).
Proof.
  intros P. exists (quotedBody s). split; [|reflexivity].
  induction s as [|c s IH]; [constructor|]. cbn [quotedBody].
  assert (J : jchars s (quotedBody s)) by (apply IH; intros x Hx; apply P; now right).
  destruct (Ascii.eqb_spec c """"%char) as [->|N1]; cbn [orb]; [now apply JC_quote|].
  destruct (Ascii.eqb_spec c "\"%char) as [->|N2]; [now apply JC_back|].
  apply JC_plain; auto. apply P. now left.
Qed.

(** * The state of the logger *)
Definition jinv (n : text) (fs0 : fsys) (c : text) (first : bool) (g : Z) (l : jlog) : Prop :=
  jName l = n /\ jHandle l = HOpen n /\ jFiles l n = Some c /\ jFirst l = first /\ jGroup l = g /\
  forall m, m <> n -> jFiles l m = fs0 m.
Lemma fset_same fs n c : fset fs n c n = Some c.
Proof. unfold fset. destruct (teq n n); congruence. Qed.
Lemma fset_other fs n c m : m <> n -> fset fs n c m = fs m.
Proof. unfold fset. destruct (teq m n); congruence. Qed.
Lemma jPut_inv n fs0 c f g l s : jinv n fs0 c f g l -> exists l', jPut s l = Ok l' /\ jinv n fs0 (c ++ s) f g l'.
Proof.
  intros (H1 & H2 & H3 & H4 & H5 & H6). unfold jPut. rewrite H2, H3. eexists. split; [reflexivity|].
  unfold jinv. cbn. splits; auto.
  - apply fset_same.
  - intros m N. rewrite fset_other; auto.
Qed.
Lemma jEnsure_inv n fs0 c f g l : jinv n fs0 c f g l -> jEnsure l = Ok l.
Proof. intros (H1 & H2 & _). unfold jEnsure. now rewrite H2. Qed.
Lemma jEnsure_new n fs g : exists l', jEnsure (mkJ n HNull g true fs) = Ok l' /\ jinv n fs jHeader true g l'.
Proof.
  unfold jEnsure, jCreate. cbn.
  destruct (jPut_inv n fs [] true g (mkJ n (HOpen n) g true (fset fs n [])) jHeader) as (l' & E & I).
  - unfold jinv. cbn. splits; auto; [apply fset_same|]. intros m N. now apply fset_other.
  - exists l'. split; auto.
Qed.

(** The file holds the records [rs] (so far without the end). *)
Definition holds (rs : list jv) (c : text) (first : bool) : Prop :=
  (first = true /\ rs = [] /\ c = jHeader) \/
  (first = false /\ exists body, c = jHeader ++ body /\ jelems rs body).
Lemma jelems_snoc l : forall v body s, jelems l body -> jtext v s -> jelems (l ++ [v]) (body ++ [","%char] ++ s).
Proof.
  induction l as [|w l IH]; intros v body s J K; inversion J; subst.
  - cbn [app]. apply (JE_cons w [v]); auto. now constructor.
  - cbn [app]. rewrite <- !app_assoc. apply (JE_cons w (l ++ [v])); auto. now apply IH.
Qed.
Lemma ws_nl : ws ["010"%char].
Proof. intros c [<-|[]]. simpl. auto. Qed.

(** Separator and record. *)
Lemma sep_rec n fs0 c f g l rs s j :
  jinv n fs0 c f g l -> holds rs c f -> jtext j s ->
  exists l' c', (l1 <- jSep l ;; jPut s l1) = Ok l' /\ jinv n fs0 c' false g l' /\ holds (rs ++ [j]) c' false.
Proof.
  intros I H J. unfold jSep. destruct H as [(-> & -> & ->)|(-> & body & -> & JE)].
  - assert (E : jFirst l = true) by (destruct I as (_ & _ & _ & E & _); auto). rewrite E. cbn [bind].
    destruct (jPut_inv n fs0 jHeader false g (mkJ (jName l) (jHandle l) (jGroup l) false (jFiles l)) s) as (l' & El & Il).
    { destruct I as (H1 & H2 & H3 & H4 & H5 & H6). unfold jinv. cbn. splits; auto. }
    exists l', (jHeader ++ s). splits; auto. right. split; auto. exists s. split; auto. cbn [app]. now constructor.
  - assert (E : jFirst l = false) by (destruct I as (_ & _ & _ & E & _); auto). rewrite E.
    destruct (jPut_inv _ _ _ _ _ _ (str "," ++ ["010"%char]) I) as (l1 & E1 & I1). rewrite E1. cbn [bind].
    destruct (jPut_inv _ _ _ _ _ _ s I1) as (l2 & E2 & I2).
    exists l2, (((jHeader ++ body) ++ str "," ++ ["010"%char]) ++ s). splits; auto.
    right. split; auto. exists (body ++ [","%char] ++ (["010"%char] ++ s)). split.
    + rewrite <- !app_assoc. reflexivity.
    + apply jelems_snoc; auto. apply jws_l; auto using ws_nl.
Qed.

Lemma ws_NL : ws NL.
Proof. intros c [<-|[<-|[<-|[]]]]; simpl; auto. Qed.
Lemma lit_jstring s : forall P : jsonPlain (lit s), jstring (lit s) ([""""%char] ++ lit s ++ [""""%char]).
Proof. intros. now apply plain_jstring. Qed.
Lemma mem (nm : string) v s : jsonPlain (lit nm) -> jtext v s ->
  jmember (lit nm, v) (NL ++ ([""""%char] ++ lit nm ++ [""""%char]) ++ str " " ++ [":"%char] ++ (str " " ++ s)).
Proof. intros P J. constructor; auto using ws_NL, ws_space, plain_jstring. apply jws_l; auto using ws_space. Qed.
Ltac plain := intros ? H; repeat (destruct H as [<-|H]; [splits; [vm_compute; lia|discriminate|discriminate]|]); contradiction.

Lemma record_json g file line name data s body :
  jchars file body -> jstring name (quoted name) -> jtext data s ->
  jtext (JObj [(lit "gInd", JNum g); (lit "file", JStr file); (lit "line", JNum line); (lit "expr", JStr name); (lit "data", data)])
    (["009"%char] ++ str "{" ++
        NL ++ str """gInd"" : " ++ digits g ++ str "," ++
        NL ++ str """file"" : """ ++ body ++ str """," ++
        NL ++ str """line"" : " ++ digits line ++ str "," ++
        NL ++ str """expr"" : " ++ quoted name ++ str "," ++
        NL ++ str """data"" : " ++ s ++ ["010"; "009"]%char ++ str "}").
Proof.
  intros JF JN JD. apply jws_l; [intros c [<-|[]]; simpl; auto|].
  match goal with |- jtext _ ?x => replace x with ("{"%char ::
      ((NL ++ ([""""%char] ++ lit "gInd" ++ [""""%char]) ++ str " " ++ [":"%char] ++ (str " " ++ digits g)) ++ [","%char] ++
       (NL ++ ([""""%char] ++ lit "file" ++ [""""%char]) ++ str " " ++ [":"%char] ++ (str " " ++ ([""""%char] ++ body ++ [""""%char]))) ++ [","%char] ++
       (NL ++ ([""""%char] ++ lit "line" ++ [""""%char]) ++ str " " ++ [":"%char] ++ (str " " ++ digits line)) ++ [","%char] ++
       (NL ++ ([""""%char] ++ lit "expr" ++ [""""%char]) ++ str " " ++ [":"%char] ++ (str " " ++ quoted name)) ++ [","%char] ++
       (NL ++ ([""""%char] ++ lit "data" ++ [""""%char]) ++ str " " ++ [":"%char] ++ (str " " ++ (s ++ ["010"; "009"]%char)))) ++ ["}"%char]) end.
  2:{ rewrite <- !app_assoc. reflexivity. }
  apply J_obj.
  apply JM_cons; [apply mem; [plain|apply J_int]|].
  apply JM_cons; [apply mem; [plain|apply J_str; exists body; auto]|].
  apply JM_cons; [apply mem; [plain|apply J_int]|].
  apply JM_cons; [apply mem; [plain|now apply J_str]|].
  apply JM_one. apply mem; [plain|]. apply jws_r; auto. intros c [<-|[<-|[]]]; simpl; auto.
Qed.
Lemma plain_record_json name data s :
  jstring name (quoted name) -> jtext data s ->
  jtext (JObj [(lit "expr", JStr name); (lit "data", data)])
    (["009"%char] ++ str "{" ++
        NL ++ str """expr"" : " ++ quoted name ++ str "," ++
        NL ++ str """data"" : " ++ s ++ ["010"%char] ++ str "}").
Proof.
  intros JN JD. apply jws_l; [intros c [<-|[]]; simpl; auto|].
  match goal with |- jtext _ ?x => replace x with ("{"%char ::
      ((NL ++ ([""""%char] ++ lit "expr" ++ [""""%char]) ++ str " " ++ [":"%char] ++ (str " " ++ quoted name)) ++ [","%char] ++
       (NL ++ ([""""%char] ++ lit "data" ++ [""""%char]) ++ str " " ++ [":"%char] ++ (str " " ++ (s ++ ["010"%char])))) ++ ["}"%char]) end.
  2:{ rewrite <- !app_assoc. reflexivity. }
  apply J_obj.
  apply JM_cons; [apply mem; [plain|now apply J_str]|].
  apply JM_one. apply mem; [plain|]. apply jws_r; auto using ws_nl.
Qed.

(** * Histories of the JSON logger *)
Definition opened (n : text) (fs0 : fsys) (rs : list jv) (g : Z) (l : jlog) : Prop :=
  exists c f, jinv n fs0 c f g l /\ holds rs c f.
Definition ready (n : text) (fs0 : fsys) (rs : list jv) (g : Z) (l : jlog) : Prop :=
  (rs = [] /\ l = mkJ n HNull g true fs0) \/ opened n fs0 rs g l.
Lemma ensure_ready n fs0 rs g l : ready n fs0 rs g l -> exists l', jEnsure l = Ok l' /\ opened n fs0 rs g l'.
Proof.
  intros [(-> & ->)|(c & f & I & H)].
  - destruct (jEnsure_new n fs0 g) as (l' & E & I). exists l'. split; auto. exists jHeader, true. split; auto. left; auto.
  - exists l. split; [eapply jEnsure_inv; eauto|]. exists c, f. auto.
Qed.
Lemma jPut_group s l l' : jPut s l = Ok l' -> jGroup l' = jGroup l.
Proof.
  unfold jPut. destruct (jHandle l); try discriminate. destruct (jFiles l n); try discriminate.
  intros E. inversion E. reflexivity.
Qed.
Lemma jSep_group l l' : jSep l = Ok l' -> jGroup l' = jGroup l.
Proof.
  unfold jSep. destruct (jFirst l); intros E; [inversion E; reflexivity|]. eapply jPut_group; eauto.
Qed.
Lemma opened_sep n fs0 rs g l (F : Z -> text) j : opened n fs0 rs g l -> jtext j (F g) ->
  exists l', (l1 <- jSep l ;; jPut (F (jGroup l1)) l1) = Ok l' /\ opened n fs0 (rs ++ [j]) g l'.
Proof.
  intros (c & f & I & H) J. destruct (sep_rec _ _ _ _ _ _ _ _ _ I H J) as (l' & c' & E & I' & H').
  exists l'. split; [|exists c', false; auto]. rewrite <- E.
  destruct (jSep l) as [l1| | |] eqn:Q; cbn [bind]; auto. apply jSep_group in Q. rewrite Q.
  destruct I as (_ & _ & _ & _ & -> & _). reflexivity.
Qed.
Definition frec (g : Z) (file : text) (line : Z) (e : text * jv) : jv :=
  JObj [(lit "gInd", JNum g); (lit "file", JStr file); (lit "line", JNum line); (lit "expr", JStr (fst e)); (lit "data", snd e)].
Definition prec (e : text * jv) : jv := JObj [(lit "expr", JStr (fst e)); (lit "data", snd e)].
Definition varOk (e : text * (text * jv)) : Prop := printable (fst e) /\ jtext (snd (snd e)) (fst (snd e)).
Definition txt (e : text * (text * jv)) : text * text := (fst e, fst (snd e)).
Definition val (e : text * (text * jv)) : text * jv := (fst e, snd (snd e)).

Lemma jVar_ready n fs0 rs g l line file e : ready n fs0 rs g l -> printable file -> ~ In """"%char file -> varOk e ->
  exists l', jVar line (doubled file) (txt e) l = Ok l' /\ opened n fs0 (rs ++ [frec g file line (val e)]) g l'.
Proof.
  intros R PF NQ (PN & JD). destruct (ensure_ready _ _ _ _ _ R) as (l1 & E1 & O1).
  unfold jVar. rewrite E1. cbn [bind].
  apply (opened_sep n fs0 rs g l1 (fun g => ["009"%char] ++ str "{" ++
        NL ++ str """gInd"" : " ++ digits g ++ str "," ++
        NL ++ str """file"" : """ ++ doubled file ++ str """," ++
        NL ++ str """line"" : " ++ digits line ++ str "," ++
        NL ++ str """expr"" : " ++ quoted (fst (txt e)) ++ str "," ++
        NL ++ str """data"" : " ++ snd (txt e) ++ ["010"; "009"]%char ++ str "}")); auto.
  apply record_json; auto using file_jchars, quoted_jstring.
Qed.
Lemma jIncr_opened n fs0 rs g l : opened n fs0 rs g l -> (g < INT_MAX)%Z ->
  exists l', jIncr l = Ok l' /\ opened n fs0 rs (g + 1) l'.
Proof.
  intros (c & f & (H1 & H2 & H3 & H4 & H5 & H6) & H) L. unfold jIncr. rewrite H5.
  apply Z.ltb_lt in L. rewrite L. eexists. split; [reflexivity|]. exists c, f. split; auto.
  unfold jinv. cbn. splits; auto.
Qed.
Lemma jVars_ready n fs0 g line file : printable file -> ~ In """"%char file -> (g < INT_MAX)%Z ->
  forall rest e rs l, ready n fs0 rs g l -> (forall x, In x (e :: rest) -> varOk x) ->
  exists l', jVars line (doubled file) (txt e) (map txt rest) l = Ok l' /\
    opened n fs0 (rs ++ map (frec g file line) (map val (e :: rest))) (g + 1) l'.
Proof.
  intros PF NQ L. induction rest as [|e2 rest IH]; intros e rs l R V.
  - destruct (jVar_ready n fs0 rs g l line file e) as (l1 & E1 & O1); auto; [apply V; now left|].
    cbn [map jVars]. rewrite E1. cbn [bind]. now apply jIncr_opened.
  - destruct (jVar_ready n fs0 rs g l line file e) as (l1 & E1 & O1); auto; [apply V; now left|].
    cbn [map jVars]. rewrite E1. cbn [bind].
    destruct (IH e2 (rs ++ [frec g file line (val e)]) l1) as (l2 & E2 & O2).
    + right. auto.
    + intros x Hx. apply V. now right.
    + exists l2. split; auto. rewrite <- app_assoc in O2. exact O2.
Qed.
Lemma jPlain1_ready n fs0 rs g l e : ready n fs0 rs g l -> varOk e ->
  exists l', jPlain1 (txt e) l = Ok l' /\ opened n fs0 (rs ++ [prec (val e)]) g l'.
Proof.
  intros R (PN & JD). destruct (ensure_ready _ _ _ _ _ R) as (l1 & E1 & O1).
  unfold jPlain1. rewrite E1. cbn [bind].
  apply (opened_sep n fs0 rs g l1 (fun _ => ["009"%char] ++ str "{" ++
        NL ++ str """expr"" : " ++ quoted (fst (txt e)) ++ str "," ++
        NL ++ str """data"" : " ++ snd (txt e) ++ ["010"%char] ++ str "}")); auto.
  apply plain_record_json; auto using quoted_jstring.
Qed.
Lemma jPlain_ready n fs0 g : forall rest e rs l, ready n fs0 rs g l -> (forall x, In x (e :: rest) -> varOk x) ->
  exists l', jPlain (txt e) (map txt rest) l = Ok l' /\ opened n fs0 (rs ++ map prec (map val (e :: rest))) g l'.
Proof.
  induction rest as [|e2 rest IH]; intros e rs l R V;
    destruct (ensure_ready _ _ _ _ _ R) as (l0 & E0 & O0);
    (destruct (jPlain1_ready n fs0 rs g l0 e) as (l1 & E1 & O1); [now right|apply V; now left|]);
    cbn [map jPlain]; rewrite E0; cbn [bind]; rewrite E1; cbn [bind].
  - exists l1. auto.
  - destruct (IH e2 (rs ++ [prec (val e)]) l1) as (l2 & E2 & O2).
    + right. auto.
    + intros x Hx. apply V. now right.
    + exists l2. split; auto. rewrite <- app_assoc in O2. exact O2.
Qed.
Lemma jCalls_ready n fs0 : forall cs g rs l, ready n fs0 rs g l -> (forall c, In c cs -> callOk c) ->
  (g + Z.of_nat (length cs) <= INT_MAX)%Z ->
  exists l' g', jCalls (map (mapCall fst) cs) l = Ok l' /\
    ready n fs0 (rs ++ records g (map (mapCall snd) cs)) g' l' /\ (cs <> [] -> opened n fs0 (rs ++ records g (map (mapCall snd) cs)) g' l').
Proof.
  induction cs as [|c cs IH]; intros g rs l R V L.
  - exists l, g. cbn. rewrite app_nil_r. splits; auto. congruence.
  - assert (Vc := V c (or_introl eq_refl)). destruct Vc as (Vv & Vf).
    assert (Hc : exists l1 g1, jCall (mapCall fst c) l = Ok l1 /\ (g1 <= g + 1)%Z /\
              exists r1, opened n fs0 (rs ++ r1) g1 l1 /\ forall rr, records g (mapCall snd c :: rr) = r1 ++ records g1 rr).
    { destruct c as [line file e rest|e rest]; cbn [mapCall jCall].
      - destruct Vf as (PF & NQ & NB). rewrite dbs_spec, (firstn_doubled _ NB). cbn [bind].
        destruct (jVars_ready n fs0 g line file PF NQ) with (rest := rest) (e := e) (rs := rs) (l := l) as (l1 & E1 & O1); auto.
        { cbn [length] in L. lia. }
        exists l1, (g + 1)%Z. splits; auto; [lia|]. eexists. split; [exact O1|].
        intros rr. cbn [records]. f_equal.
      - destruct (jPlain_ready n fs0 g rest e rs l) as (l1 & E1 & O1); auto.
        exists l1, g. splits; auto; [lia|]. eexists. split; [exact O1|].
        intros rr. cbn [records]. f_equal. }
    destruct Hc as (l1 & g1 & E1 & Lg & r1 & O1 & Er).
    destruct (IH g1 (rs ++ r1) l1) as (l2 & g2 & E2 & R2 & _).
    + now right.
    + intros x Hx. apply V. now right.
    + cbn [length] in L. lia.
    + exists l2, g2. cbn [map]. rewrite Er. rewrite app_assoc. splits; auto.
      * unfold jCalls. cbn [foldM]. rewrite E1. cbn [bind]. exact E2.
      * intros _. destruct R2 as [(Q & _)|R2]; auto. exfalso.
        destruct O1 as (c1 & f1 & I1 & H1).
        specialize (Er []). cbn [records] in Er. rewrite app_nil_r in Er.
        apply app_eq_nil in Q. destruct Q as (Q & _). apply app_eq_nil in Q. destruct Q as (_ & ->).
        destruct c; discriminate Er.
Qed.

Lemma destroy_opened n fs0 rs g l : opened n fs0 rs g l -> rs <> [] ->
  exists l' s, jDestroy l = Ok l' /\ jFiles l' n = Some s /\ (forall m, m <> n -> jFiles l' m = fs0 m) /\
    jtext (JObj [(lit "logs", JArr rs)]) s.
Proof.
  intros (c & f & I & H) N. destruct H as [(_ & Q & _)|(-> & body & -> & J)]; [congruence|].
  unfold jDestroy. destruct (jPut_inv _ _ _ _ _ _ jFooter I) as (l1 & E1 & I1).
  assert (Hh : jHandle l = HOpen n) by apply I. rewrite Hh, E1. cbn [bind].
  destruct I1 as (H1 & H2 & H3 & H4 & H5 & H6).
  eexists. exists ((jHeader ++ body) ++ jFooter). splits; [reflexivity|exact H3|exact H6|].
  destruct rs as [|v rs]; [congruence|].
  match goal with |- jtext _ ?x => replace x with
    ("{"%char :: ((["010"%char] ++ ([""""%char] ++ lit "logs" ++ [""""%char]) ++ [] ++ [":"%char] ++
       (("["%char :: ((["010"%char] ++ body) ++ ["010"%char]) ++ ["]"%char]) ++ ["010"%char])) ++ ["}"%char])) end.
  2:{ unfold jHeader, jFooter. rewrite <- !app_assoc. cbn [app str]. rewrite <- ?app_assoc. reflexivity. }
  apply J_obj, JM_one, JM; [apply ws_nl|apply ws_nil|apply plain_jstring; plain|].
  apply jws_r; [apply ws_nl|]. apply J_arr. apply jelems_r; [apply ws_nl|]. apply jelems_l; auto using ws_nl.
Qed.

(** * The HTML logger *)
Definition hinv (n : text) (fs0 : fsys) (c : text) (g : Z) (l : hlog) : Prop :=
  hName l = n /\ hHandle l = HOpen n /\ hFiles l n = Some c /\ hGroup l = g /\ forall m, m <> n -> hFiles l m = fs0 m.
Lemma hPut_inv n fs0 c g l s : hinv n fs0 c g l -> exists l', hPut s l = Ok l' /\ hinv n fs0 (c ++ s) g l'.
Proof.
  intros (H1 & H2 & H3 & H5 & H6). unfold hPut. rewrite H2, H3. eexists. split; [reflexivity|].
  unfold hinv. cbn. splits; auto.
  - apply fset_same.
  - intros m N. rewrite fset_other; auto.
Qed.
Section HtmlP.
Variables (script endScript : text).
Definition hready (n : text) (fs0 : fsys) (c : text) (g : Z) (l : hlog) : Prop :=
  (c = script /\ l = mkH n HNull g fs0) \/ hinv n fs0 c g l.
Lemma hensure n fs0 c g l : hready n fs0 c g l -> exists l', hEnsure script l = Ok l' /\ hinv n fs0 c g l'.
Proof.
  intros [(-> & ->)|I].
  - unfold hEnsure, hCreate. cbn.
    destruct (hPut_inv n fs0 [] g (mkH n (HOpen n) g (fset fs0 n [])) script) as (l' & E & I).
    + unfold hinv. cbn. splits; auto; [apply fset_same|]. intros m N. now apply fset_other.
    + exists l'. auto.
  - exists l. split; auto. unfold hEnsure. destruct I as (_ & -> & _). reflexivity.
Qed.
Lemma jsName_chars s : jsName s -> jschars s s.
Proof.
  induction s as [|c s IH]; intros N; [constructor|]. apply JS_plain; [apply N; now left|].
  apply IH. intros x Hx. apply N. now right.
Qed.
Lemma jsFile_chars s : jsFile s -> jschars s (doubled s).
Proof.
  induction s as [|c s IH]; intros N; [constructor|]. cbn [doubled].
  assert (J : jschars s (doubled s)) by (apply IH; intros x Hx; apply N; now right).
  destruct (ascii_dec c "\"%char) as [->|NB]; [now apply JS_back|]. apply JS_plain; auto.
  specialize (N c (or_introl eq_refl)). intros [Q|[Q|[Q|[Q|[]]]]]; [apply N; left; exact Q|congruence|apply N; right; left; exact Q|
    apply N; right; right; left; exact Q].
Qed.
Lemma jsrows_snoc rs : forall t r s, jsrows rs t -> jsrow r s -> jsrows (rs ++ [r]) (t ++ s ++ str "," ++ ["010"%char]).
Proof.
  induction rs as [|w rs IH]; intros t r s H J; inversion H; subst.
  - cbn [app]. change (str "," ++ ["010"%char]) with (lit "," ++ ["010"%char] ++ []). apply JR_cons; auto using JR_nil.
  - cbn [app]. rewrite <- !app_assoc. apply (JR_cons w (rs ++ [r])); auto.
Qed.
Definition hholds (rs : list row) (c : text) : Prop := exists body, c = script ++ body /\ jsrows rs body.
Definition hvarOk (e : text * (text * jv)) : Prop := jsName (fst e) /\ jtext (snd (snd e)) (fst (snd e)).
Definition hrow (g line : Z) (file : text) (e : text * (text * jv)) : row := mkRow g line file (fst e) (snd (snd e)).
Lemma hVar_ready n fs0 c g l line file e rs : hready n fs0 c g l -> hholds rs c -> jsFile file -> hvarOk e ->
  exists l' c', hVar script line (doubled file) (txt e) l = Ok l' /\ hinv n fs0 c' g l' /\ hholds (rs ++ [hrow g line file e]) c'.
Proof.
  intros R (body & -> & J) F (PN & JD). destruct (hensure _ _ _ _ _ R) as (l1 & E1 & I1).
  unfold hVar. rewrite E1. cbn [bind]. assert (G : hGroup l1 = g) by apply I1. rewrite G.
  match goal with |- context [hPut ?s l1] => destruct (hPut_inv _ _ _ _ _ s I1) as (l2 & E2 & I2) end.
  exists l2. eexists. splits; [exact E2|exact I2|].
  eexists. split; [rewrite <- app_assoc; reflexivity|].
  match goal with |- jsrows _ (body ++ ?x) => replace x with
    ((lit "[" ++ decimal g ++ lit ", " ++ decimal line ++ lit ", " ++ ("'"%char :: doubled file ++ ["'"%char]) ++ lit ", " ++
      ("'"%char :: fst e ++ ["'"%char]) ++ lit ", " ++ fst (snd e) ++ lit "]") ++ str "," ++ ["010"%char]) end.
  2:{ rewrite <- ?app_assoc. cbn [app]. rewrite <- ?app_assoc. reflexivity. }
  apply jsrows_snoc; auto. exists ("'"%char :: doubled file ++ ["'"%char]), ("'"%char :: fst e ++ ["'"%char]), (fst (snd e)).
  splits; auto.
  - exists (doubled file). split; auto. now apply jsFile_chars.
  - exists (fst e). split; auto. now apply jsName_chars.
Qed.
Lemma hVars_ready n fs0 g line file : jsFile file -> (g < INT_MAX)%Z ->
  forall rest e rs c l, hready n fs0 c g l -> hholds rs c -> (forall x, In x (e :: rest) -> hvarOk x) ->
  exists l' c', hVars script line (doubled file) (txt e) (map txt rest) l = Ok l' /\
    hinv n fs0 c' (g + 1) l' /\ hholds (rs ++ map (hrow g line file) (e :: rest)) c'.
Proof.
  intros F L. induction rest as [|e2 rest IH]; intros e rs c l R H V;
    destruct (hVar_ready n fs0 c g l line file e rs) as (l1 & c1 & E1 & I1 & H1); auto; try (apply V; now left);
    cbn [map hVars]; rewrite E1; cbn [bind].
  - destruct I1 as (A1 & A2 & A3 & A4 & A5). unfold hIncr. rewrite A4. apply Z.ltb_lt in L. rewrite L.
    eexists. exists c1. splits; [reflexivity| |exact H1]. unfold hinv. cbn. splits; auto.
  - destruct (IH e2 (rs ++ [hrow g line file e]) c1 l1) as (l2 & c2 & E2 & I2 & H2); auto.
    + right. auto.
    + intros x Hx. apply V. now right.
    + exists l2, c2. splits; auto. rewrite <- app_assoc in H2. exact H2.
Qed.
Definition hargs (c : hcall) := (hcLine c, hcFile c, txt (hcVar c), map txt (hcRest c)).
Lemma hCalls_ready n fs0 : forall cs g rs c l, hready n fs0 c g l -> hholds rs c -> (forall x, In x cs -> hcallOk x) ->
  (g + Z.of_nat (length cs) <= INT_MAX)%Z ->
  exists l' c' g', hCalls script (map hargs cs) l = Ok l' /\ hready n fs0 c' g' l' /\ hholds (rs ++ rowsOf g cs) c' /\
    (cs <> [] -> hinv n fs0 c' g' l').
Proof.
  induction cs as [|x cs IH]; intros g rs c l R H V L.
  - exists l, c, g. cbn. rewrite app_nil_r. splits; auto. congruence.
  - destruct (V x (or_introl eq_refl)) as (F & Vv).
    destruct (hVars_ready n fs0 g (hcLine x) (hcFile x) F) with (rest := hcRest x) (e := hcVar x) (rs := rs) (c := c) (l := l)
      as (l1 & c1 & E1 & I1 & H1); auto.
    { cbn [length] in L. lia. }
    destruct (IH (g + 1)%Z (rs ++ map (hrow g (hcLine x) (hcFile x)) (hcVar x :: hcRest x)) c1 l1) as (l2 & c2 & g2 & E2 & R2 & H2 & I2); auto.
    + right. auto.
    + intros y Hy. apply V. now right.
    + cbn [length] in L. lia.
    + exists l2, c2, g2. splits.
      * unfold hCalls. cbn [map foldM]. unfold hargs at 1, hCall. rewrite htmlEscape_doubled, E1. cbn [bind]. exact E2.
      * auto.
      * rewrite <- app_assoc in H2. exact H2.
      * intros _. destruct cs; auto. cbn in E2. inversion E2; subst l2. destruct R2 as [(_ & Q)|R2]; auto.
        destruct I1 as (_ & A & _). rewrite Q in A. discriminate.
        apply I2. discriminate.
Qed.
End HtmlP.

(** * The console *)
Lemma findLast_none c s : findLast c s = None <-> ~ In c s.
Proof.
  induction s as [|x s IH]; cbn [findLast]; [split; auto|]. destruct (findLast c s) as [p|].
  - split; [discriminate|]. intros N. exfalso. assert (Q : Some p = None) by (apply IH; intros Q; apply N; now right). discriminate.
  - destruct (Ascii.eqb_spec x c) as [->|NE].
    + split; [discriminate|]. intros N. exfalso. apply N. now left.
    + split; auto. intros _ [Q|Q]; [congruence|]. now apply (proj1 IH).
Qed.
Lemma findLast_at c a b : ~ In c b -> findLast c (a ++ c :: b) = Some (length a).
Proof.
  intros N. induction a as [|x a IH]; cbn [app findLast length].
  - rewrite (proj2 (findLast_none c b) N), Ascii.eqb_refl. reflexivity.
  - now rewrite IH.
Qed.
Lemma skipn_at {A} (a : list A) x b : skipn (length a + 1) (a ++ x :: b) = b.
Proof. induction a; auto. Qed.

Lemma plainFrom_app s t : ~ In "027"%char s -> plainFrom false (s ++ t) = s ++ plainFrom false t.
Proof.
  induction s as [|c s IH]; intros N; auto. cbn [app plainFrom].
  destruct (ascii_dec c "027"%char) as [->|]; [exfalso; apply N; now left|]. rewrite IH; auto. intros Q; apply N; now right.
Qed.

Lemma digits_noEsc z : ~ In "027"%char (digits z) /\ lines (digits z) = 0.
Proof.
  assert (D : forall c, In c (digits z) -> c = "-"%char \/ isDigit c = true).
  { intros c Hc. unfold digits in Hc. destruct (Z.to_int z) as [d|d]; cbn in Hc.
    - right. eapply uint_digits; eauto.
    - destruct Hc as [Hc|Hc]; [left; congruence|]. right. eapply uint_digits; eauto. }
  split.
  - intros Q. destruct (D _ Q) as [H|H]; discriminate.
  - unfold lines. apply count_occ_not_In. intros Q. destruct (D _ Q) as [H|H]; discriminate.
Qed.
Lemma color_plain c code t : In code ["0;33"; "0"; "0;32"; "0;31"]%string ->
  plainFrom false (color c code ++ t) = color (cSet (SetColor false) c) code ++ plainFrom false t.
Proof. intros H. unfold color. cbn [cColor cSet]. destruct (cColor c); auto. destruct H as [<-|[<-|[<-|[<-|[]]]]]; reflexivity. Qed.
Ltac noesc := first [assumption | apply digits_noEsc | vm_compute; intuition discriminate].
Lemma header_plain c p line func file t : ~ In "027"%char p -> ~ In "027"%char func -> ~ In "027"%char file ->
  plainFrom false (header c p line func file ++ t) = header c p line func file ++ plainFrom false t.
Proof.
  intros Np Nf Nfi. apply plainFrom_app. unfold header. rewrite !in_app_iff.
  intros [Q|[Q|[Q|[Q|Q]]]]; revert Q; try noesc.
  destruct (cFunction c); [|auto]. rewrite !in_app_iff. intros [Q|[Q|Q]]; revert Q; noesc.
Qed.
Lemma cVar_plain c line func file v t : ~ In "027"%char func -> ~ In "027"%char file -> ~ In "027"%char (cIdent c) ->
  ~ In "027"%char (fst v) -> ~ In "027"%char (snd v) ->
  plainFrom false (cVar c line func file v ++ t) = cVar (cSet (SetColor false) c) line func file v ++ plainFrom false t.
Proof.
  intros N1 N2 N3 N4 N5. unfold cVar. cbn [cAggregated cIdent cSet].
  change (header (cSet (SetColor false) c)) with (header c).
  rewrite <- !app_assoc. destruct (cAggregated c).
  - rewrite <- ?app_assoc. rewrite plainFrom_app by noesc. f_equal.
    rewrite plainFrom_app by noesc. f_equal. rewrite color_plain by (simpl; auto). f_equal.
    rewrite plainFrom_app by noesc. f_equal. rewrite color_plain by (simpl; auto). f_equal.
    rewrite plainFrom_app by noesc. f_equal. rewrite color_plain by (simpl; auto). f_equal.
    rewrite plainFrom_app by noesc. f_equal. rewrite color_plain by (simpl; auto). f_equal.
  - rewrite <- ?app_assoc. rewrite header_plain by noesc. f_equal.
    rewrite plainFrom_app by noesc. f_equal.
    rewrite plainFrom_app by noesc. f_equal. rewrite color_plain by (simpl; auto). f_equal.
    rewrite plainFrom_app by noesc. f_equal. rewrite color_plain by (simpl; auto). f_equal.
    rewrite plainFrom_app by noesc. f_equal. rewrite color_plain by (simpl; auto). f_equal.
    rewrite plainFrom_app by noesc. f_equal. rewrite color_plain by (simpl; auto). f_equal.
Qed.
Lemma lines_app s t : lines (s ++ t) = lines s + lines t.
Proof. apply count_occ_app. Qed.
Lemma color_lines c code : In code ["0;33"; "0"; "0;32"; "0;31"]%string -> lines (color c code) = 0.
Proof. intros H. unfold color. destruct (cColor c); auto. destruct H as [<-|[<-|[<-|[<-|[]]]]]; reflexivity. Qed.
Lemma header_lines c line func file : lines func = 0 -> lines file = 0 -> lines (header c (str "== ") line func file) = 0.
Proof.
  intros N1 N2. unfold header. rewrite !lines_app, N2, (proj2 (digits_noEsc line)).
  destruct (cFunction c); rewrite ?lines_app, ?N1; reflexivity.
Qed.
Lemma cVar_lines c line func file v : lines func = 0 -> lines file = 0 -> lines (cIdent c) = 0 ->
  lines (fst v) = 0 -> lines (snd v) = 0 -> lines (cVar c line func file v) = 1.
Proof.
  intros N1 N2 N3 N4 N5. unfold cVar. rewrite !lines_app, N4, N5.
  rewrite !color_lines by (simpl; auto).
  destruct (cAggregated c); rewrite ?lines_app, ?N3, ?header_lines by auto; reflexivity.
Qed.

(** C54-C56, C60: the loggers. *)
From Coq Require Import String Ascii ZArith Lia.
From Verif Require Import Base P_Base M_Traits M_Print M_Log S_Json S_Print S_Log P_Print P_Json P_JsonParse P_Log.
Local Open Scope list_scope.

(** * C54: the JSON log *)
(** A logger is created, makes any calls and is destroyed. The file it was created with is then JSON: an object
    with the list of the records of all variables in order; no other file is touched. Each variable comes with
    the text exported for it, which is JSON (C53_json), and its name is printable. *)
Theorem C54_json_log : forall (name : text) (fs : fsys) (calls : list (call (text * jv))),
  calls <> [] -> (forall c, In c calls -> callOk c) -> (Z.of_nat (length calls) <= 2147483647)%Z ->
  exists l s, (l0 <- jCalls (map (mapCall fst) calls) (jNew name fs) ;; jDestroy l0) = Ok l /\
    jFiles l name = Some s /\
    jtext (JObj [(lit "logs", JArr (records 0 (map (mapCall snd) calls)))]) s /\
    forall m, m <> name -> jFiles l m = fs m.
Proof.
  intros name fs calls N V L.
  destruct (jCalls_ready name fs calls 0 [] (jNew name fs)) as (l1 & g & E & _ & O); auto.
  { left. split; reflexivity. }
  specialize (O N). rewrite E. cbn [bind].
  destruct (destroy_opened _ _ _ _ _ O) as (l & s & Ed & Hs & Ho & J).
  - destruct calls as [|c cs]; [congruence|]. destruct c; discriminate.
  - exists l, s. splits; auto.
Qed.
(** A JSON text has one value only, so the value of the log is determined by the text of the file, *)
Theorem C54_unambiguous : forall (v v' : jv) (s : text), jtext v s -> jtext v' s -> v = v'.
Proof. exact json_unambiguous. Qed.
(** and a reader of the file finds the records of exactly these calls. *)
Theorem C54_log_read : forall (name : text) (fs : fsys) (calls : list (call (text * jv))) l s v,
  calls <> [] -> (forall c, In c calls -> callOk c) -> (Z.of_nat (length calls) <= 2147483647)%Z ->
  (l0 <- jCalls (map (mapCall fst) calls) (jNew name fs) ;; jDestroy l0) = Ok l -> jFiles l name = Some s -> jtext v s ->
  v = JObj [(lit "logs", JArr (records 0 (map (mapCall snd) calls)))].
Proof.
  intros name fs calls l s v N V L E F J. destruct (C54_json_log name fs calls N V L) as (l' & s' & E' & F' & J' & _).
  rewrite E in E'. injection E' as <-. rewrite F in F'. injection F' as <-. exact (json_unambiguous _ _ _ J J').
Qed.
(** A logger that is never called writes nothing. *)
Theorem C54_no_call : forall name fs, (l0 <- jCalls [] (jNew name fs) ;; jDestroy l0) = Ok (jNew name fs).
Proof. reflexivity. Qed.
(** The group number of the records of the i-th call is the number of the previous calls with a place. *)
Theorem C54_groups : forall (before : list (call jv)) line file v rest after,
  records 0 (before ++ CVars line file v rest :: after) =
  records 0 before ++
  map (fun e => JObj [(lit "gInd", JNum (Z.of_nat (length (filter (fun c => match c with CVars _ _ _ _ => true | _ => false end) before))));
                      (lit "file", JStr file); (lit "line", JNum line); (lit "expr", JStr (fst e)); (lit "data", snd e)]) (v :: rest) ++
  records (Z.of_nat (length (filter (fun c => match c with CVars _ _ _ _ => true | _ => false end) before)) + 1) after.
Proof.
  intros before line file v rest after. change 0%Z with (Z.of_nat 0) at 1 2.
  assert (G : forall k, records (Z.of_nat k) (before ++ CVars line file v rest :: after) =
    records (Z.of_nat k) before ++
    map (fun e => JObj [(lit "gInd", JNum (Z.of_nat (k + length (filter (fun c => match c with CVars _ _ _ _ => true | _ => false end) before))));
                      (lit "file", JStr file); (lit "line", JNum line); (lit "expr", JStr (fst e)); (lit "data", snd e)]) (v :: rest) ++
    records (Z.of_nat (k + length (filter (fun c => match c with CVars _ _ _ _ => true | _ => false end) before)) + 1) after).
  { induction before as [|c b IH]; intros k.
    - cbn [filter length app records]. rewrite Nat.add_0_r. reflexivity.
    - destruct c as [ln f w r|w r]; cbn [app records filter].
      + replace (Z.of_nat k + 1)%Z with (Z.of_nat (S k)) by lia. rewrite IH. cbn [length].
        rewrite Nat.add_succ_r, <- Nat.add_succ_l, <- app_assoc. reflexivity.
      + rewrite IH, <- app_assoc. reflexivity. }
  exact (G 0).
Qed.

Lemma jPut_group s l l' : jPut s l = Ok l' -> jGroup l' = jGroup l.
Proof. unfold jPut. destruct (jHandle l); try discriminate. destruct (jFiles l _); [|discriminate]. intros H; injection H as <-; reflexivity. Qed.
Lemma jEnsure_group l l' : jEnsure l = Ok l' -> jGroup l' = jGroup l.
Proof. unfold jEnsure, jCreate. destruct (jHandle l) eqn:E; intros H; try (injection H as <-; reflexivity). apply jPut_group in H. exact H. Qed.
Lemma jSep_group l l' : jSep l = Ok l' -> jGroup l' = jGroup l.
Proof. unfold jSep. destruct (jFirst l); intros H; [injection H as <-; reflexivity|apply jPut_group in H; exact H]. Qed.
Ltac gb H := let X := fresh "X" in match type of H with bind ?e _ = Ok _ => destruct e eqn:X; [cbn [bind] in H|discriminate H|discriminate H|discriminate H] end.
Lemma jVar_group line f v l l' : jVar line f v l = Ok l' -> jGroup l' = jGroup l.
Proof. unfold jVar. intros H. gb H. gb H. apply jPut_group in H. apply jEnsure_group in X. apply jSep_group in X0. congruence. Qed.
Lemma jPlain1_group v l l' : jPlain1 v l = Ok l' -> jGroup l' = jGroup l.
Proof. unfold jPlain1. intros H. gb H. gb H. apply jPut_group in H. apply jEnsure_group in X. apply jSep_group in X0. congruence. Qed.
Lemma jPlain_group : forall rest v l l', jPlain v rest l = Ok l' -> jGroup l' = jGroup l.
Proof.
  induction rest as [|w r IH]; intros v l l' H; cbn [jPlain] in H; gb H; gb H; apply jEnsure_group in X; apply jPlain1_group in X0.
  - injection H as <-. congruence.
  - apply IH in H. congruence.
Qed.
Lemma jVars_nil line f v l : jVars line f v [] l = bind (jVar line f v l) jIncr.
Proof. reflexivity. Qed.
Lemma jVars_cons line f v w r l : jVars line f v (w :: r) l = bind (jVar line f v l) (jVars line f w r).
Proof. reflexivity. Qed.
Lemma jIncr_group l l' : jIncr l = Ok l' -> jGroup l' = (jGroup l + 1)%Z /\ (jGroup l' <= 2147483647)%Z.
Proof. unfold jIncr. destruct (Z.ltb_spec (jGroup l) INT_MAX) as [Q|Q]; [|discriminate]. unfold INT_MAX in Q. intros H. injection H as <-. cbn [jGroup]. lia. Qed.
Lemma jVars_group : forall rest line f v l l', jVars line f v rest l = Ok l' -> jGroup l' = (jGroup l + 1)%Z /\ (jGroup l' <= 2147483647)%Z.
Proof.
  induction rest as [|w r IH]; intros line f v l l' H.
  - rewrite jVars_nil in H. gb H. apply jVar_group in X. apply jIncr_group in H. rewrite X in H. exact H.
  - rewrite jVars_cons in H. gb H. apply jVar_group in X. apply IH in H. rewrite X in H. exact H.
Qed.
(** A call with a place. *)
Definition located (c : call text) : bool := match c with CVars _ _ _ _ => true | CPlain _ _ => false end.
(** ** C54. The calls with a place are counted in an int: a logger makes at most 2147483647 of them (the next one is a signed overflow). *)
Theorem C54_call_limit : forall name fs (calls : list (call text)) l,
  jCalls calls (jNew name fs) = Ok l -> (Z.of_nat (length (filter located calls)) <= 2147483647)%Z.
Proof.
  intros name fs calls l H. assert (G : forall cs l0, (jGroup l0 <= 2147483647)%Z -> jCalls cs l0 = Ok l -> (jGroup l = jGroup l0 + Z.of_nat (length (filter located cs)))%Z /\ (jGroup l <= 2147483647)%Z).
  { induction cs as [|c cs IH]; intros l0 L E; cbn [jCalls foldM] in E; [injection E as <-; cbn; lia|]. gb E. fold (jCalls cs a) in E.
    assert (jGroup a = (jGroup l0 + if located c then 1 else 0)%Z /\ (jGroup a <= 2147483647)%Z) as [E1 E2].
    { destruct c as [line file v rest|v rest]; cbn [jCall located] in *.
      - destruct (doubleBackSlash file); [cbn [bind] in X|discriminate X|discriminate X|discriminate X]. apply jVars_group in X. lia.
      - apply jPlain_group in X. lia. }
    destruct (IH a E2 E) as [E3 E4]. cbn [filter]. destruct (located c); cbn [length]; lia. }
  destruct (G calls (jNew name fs)) as [G1 G2]; [cbn; lia|exact H|]. cbn [jNew jGroup] in G1. lia.
Qed.

(** Where the claim ends: calling create() again abandons the first file without its end; using the logger
    after destroy(), or destroying it twice (the destructor after an explicit destroy()), uses a deleted
    stream. *)
Theorem C54_finding_recreate : forall n1 n2 fs, n1 <> n2 ->
  exists l, (l <- jCreate n1 (jNew n1 fs) ;; l <- jCreate n2 l ;; jDestroy l) = Ok l /\
    jFiles l n1 = Some jHeader.
Proof.
  intros n1 n2 fs N. unfold jCreate, jNew, jDestroy, jPut. cbn. rewrite !fset_same. cbn. rewrite !fset_same. cbn.
  rewrite !fset_same. cbn. eexists. split; [reflexivity|]. cbn. rewrite !fset_other, fset_same by congruence. reflexivity.
Qed.
Theorem C54_finding_destroy_twice : forall l l', jHandle l <> HNull -> jDestroy l = Ok l' ->
  jDestroy l' = UB /\ forall c, jCall c l' = UB.
Proof.
  intros l l' N E. assert (D : jHandle l' = HDangling).
  { unfold jDestroy in E. destruct (jHandle l) eqn:Q; [congruence| |discriminate].
    destruct (jPut jFooter l) as [l1| | |]; try discriminate. cbn in E. inversion E. reflexivity. }
  split; [unfold jDestroy; now rewrite D|].
  assert (V : forall line f v, jVar line f v l' = UB).
  { intros. unfold jVar, jEnsure. rewrite D. cbn [bind]. unfold jSep, jPut.
    destruct (jFirst l'); cbn; rewrite D; reflexivity. }
  assert (P : forall v, jPlain1 v l' = UB).
  { intros. unfold jPlain1, jEnsure. rewrite D. cbn [bind]. unfold jSep, jPut.
    destruct (jFirst l'); cbn; rewrite D; reflexivity. }
  intros [line file v rest|v rest]; cbn [jCall].
  - rewrite dbs_spec. cbn [bind]. destruct rest; cbn [jVars]; now rewrite V.
  - destruct rest; cbn [jPlain]; unfold jEnsure; rewrite D; cbn [bind]; now rewrite P.
Qed.

(** * C55: the escaping of the file name *)
(** JSON logger: all backslashes from the third character on are doubled, and the loop ends for every name. *)
Theorem C55_json_doubling : forall s, doubleBackSlash s = Ok (firstn 2 s ++ doubled (skipn 2 s)).
Proof. exact dbs_spec. Qed.
(** It doubles every backslash exactly if none of the first two characters is one. *)
Theorem C55_json_complete : forall s,
  doubleBackSlash s = Ok (doubled s) <-> ~ In "\"%char (firstn 2 s).
Proof.
  intros s. rewrite dbs_spec. split.
  - intros E H. assert (E' : firstn 2 s ++ doubled (skipn 2 s) = doubled s) by (inversion E; auto). clear E.
    rewrite <- (firstn_skipn 2 s) in E' at 3. rewrite doubled_app in E'. apply app_inv_tail in E'.
    apply (f_equal (@length _)) in E'. revert H E'. generalize (firstn 2 s) as u.
    assert (Le : forall u, length u <= length (doubled u)).
    { induction u as [|c u IH]; simpl; auto. destruct (ascii_dec c "\"%char); cbn [length]; lia. }
    induction u as [|c u IH]; intros H E'; [destruct H|]. cbn [doubled] in E'.
    destruct (ascii_dec c "\"%char) as [->|NE]; cbn [length] in E'.
    + specialize (Le u). lia.
    + destruct H as [H|H]; [congruence|]. apply IH; auto.
  - intros N. f_equal. apply firstn_doubled. intros i L Q. apply N.
    destruct s as [|a [|b s]]; destruct i as [|[|i]]; cbn [nth_error firstn] in *; try discriminate; try lia;
      inversion Q; simpl; auto.
Qed.
(** HTML logger: every backslash is doubled. *)
Theorem C55_html_doubling : forall s, htmlEscape s = doubled s.
Proof. exact htmlEscape_doubled. Qed.
(** What doubling means: undoing it gives the name back, so no two names are confused. *)
Theorem C55_doubling_injective : forall s t, doubled s = doubled t -> s = t.
Proof.
  induction s as [|c s IH]; intros [|d t] E; auto; cbn [doubled] in E.
  - destruct (ascii_dec d "\"%char); discriminate.
  - destruct (ascii_dec c "\"%char); discriminate.
  - destruct (ascii_dec c "\"%char) as [Qc|Qc], (ascii_dec d "\"%char) as [Qd|Qd].
    + assert (E' : doubled s = doubled t) by (inversion E; auto). rewrite (IH t E'). congruence.
    + assert (d = "\"%char) by (inversion E; auto). congruence.
    + assert (c = "\"%char) by (inversion E; auto). congruence.
    + assert (E' : doubled s = doubled t) by (inversion E; auto). rewrite (IH t E'). inversion E. reflexivity.
Qed.
(** Windows network paths: \\host\dir becomes \\host\\dir, in which JSON reads \h as an illegal escape. *)
Example C55_finding_unc : doubleBackSlash (lit "\\host\dir") = Ok (lit "\\host\\dir").
Proof. reflexivity. Qed.

(** * C60: the HTML log *)
Theorem C60_html_log : forall (script endScript name : text) (fs : fsys) (calls : list hcall),
  calls <> [] -> (forall c, In c calls -> hcallOk c) -> (Z.of_nat (length calls) <= 2147483647)%Z ->
  exists l body,
    (l0 <- hCalls script (map (fun c => (hcLine c, hcFile c, (fst (hcVar c), fst (snd (hcVar c))),
                                         map (fun e => (fst e, fst (snd e))) (hcRest c))) calls) (hNew name fs) ;;
     hDestroy endScript l0) = Ok l /\
    hFiles l name = Some (script ++ body ++ endScript) /\ jsrows (rowsOf 0 calls) body /\
    forall m, m <> name -> hFiles l m = fs m.
Proof.
  intros script endScript name fs calls N V L.
  destruct (hCalls_ready script name fs calls 0 [] script (hNew name fs)) as (l1 & c & g & E & _ & (body & -> & H) & I); auto.
  { left. split; reflexivity. }
  { exists []. rewrite app_nil_r. split; auto. constructor. }
  specialize (I N). change (map (fun c => _) calls) with (map hargs calls). rewrite E. cbn [bind].
  unfold hDestroy. destruct (hPut_inv _ _ _ _ _ endScript I) as (l2 & E2 & I2).
  assert (Q : hHandle l1 = HOpen name) by apply I. rewrite Q, E2. cbn [bind].
  destruct I2 as (A1 & A2 & A3 & A4 & A5).
  eexists. exists body. splits; [reflexivity| |exact H|exact A5]. cbn. rewrite A3, <- app_assoc. reflexivity.
Qed.
Section HGroup.
Variables (script endScript : text).
Lemma hPut_group s l l' : hPut s l = Ok l' -> hGroup l' = hGroup l.
Proof. unfold hPut. destruct (hHandle l); try discriminate. destruct (hFiles l _); [|discriminate]. intros H; injection H as <-; reflexivity. Qed.
Lemma hVar_group line f v l l' : hVar script line f v l = Ok l' -> hGroup l' = hGroup l.
Proof.
  unfold hVar, hEnsure, hCreate. intros H. gb H. apply hPut_group in H. rewrite H. destruct (hHandle l); try (injection X as <-; reflexivity). apply hPut_group in X. exact X.
Qed.
Lemma hVars_nil line f v l : hVars script line f v [] l = bind (hVar script line f v l) hIncr.
Proof. reflexivity. Qed.
Lemma hVars_cons line f v w r l : hVars script line f v (w :: r) l = bind (hVar script line f v l) (hVars script line f w r).
Proof. reflexivity. Qed.
Lemma hIncr_group l l' : hIncr l = Ok l' -> hGroup l' = (hGroup l + 1)%Z /\ (hGroup l' <= 2147483647)%Z.
Proof. unfold hIncr. destruct (Z.ltb_spec (hGroup l) INT_MAX) as [Q|Q]; [|discriminate]. unfold INT_MAX in Q. intros H. injection H as <-. cbn [hGroup]. lia. Qed.
Lemma hVars_group : forall rest line f v l l', hVars script line f v rest l = Ok l' -> hGroup l' = (hGroup l + 1)%Z /\ (hGroup l' <= 2147483647)%Z.
Proof.
  induction rest as [|w r IH]; intros line f v l l' H.
  - rewrite hVars_nil in H. gb H. apply hVar_group in X. apply hIncr_group in H. rewrite X in H. exact H.
  - rewrite hVars_cons in H. gb H. apply hVar_group in X. apply IH in H. rewrite X in H. exact H.
Qed.
End HGroup.
(** ** C60. The same for the HTML log. *)
Theorem C60_call_limit : forall script name fs calls l, hCalls script calls (hNew name fs) = Ok l -> (Z.of_nat (length calls) <= 2147483647)%Z.
Proof.
  intros script name fs calls l H.
  assert (G : forall cs l0, (hGroup l0 <= 2147483647)%Z -> hCalls script cs l0 = Ok l -> (hGroup l = hGroup l0 + Z.of_nat (length cs))%Z /\ (hGroup l <= 2147483647)%Z).
  { induction cs as [|c cs IH]; intros l0 L E; cbn [hCalls foldM] in E; [injection E as <-; cbn; lia|]. gb E. fold (hCalls script cs a) in E.
    destruct c as [[[line file] v] rest]. apply hVars_group in X. destruct (IH a (proj2 X) E) as [E3 E4]. cbn [length]. lia. }
  destruct (G calls (hNew name fs)) as [G1 G2]; [cbn; lia|exact H|]. cbn [hNew hGroup] in G1. lia.
Qed.

(** Names are not escaped: a name with ' is not written as a string with that content. *)
Theorem C60_finding_name : forall a b, ~ jsstring (a ++ "'"%char :: b) ("'"%char :: (a ++ "'"%char :: b) ++ ["'"%char]).
Proof.
  intros a b (u & J & E).
  assert (E' : a ++ "'"%char :: b = u) by (inversion E as [E0]; apply app_inj_tail in E0; tauto). subst u. clear E.
  assert (G : forall s t, jschars s t -> ~ In "'"%char t).
  { induction 1 as [|c s t P J' IH|s t J' IH]; [auto| |].
    - intros [Q|Q]; [subst c; apply P; now left|auto].
    - intros [Q|[Q|Q]]; [discriminate|discriminate|auto]. }
  apply (G _ _ J). apply in_or_app. right. now left.
Qed.

(** * C56: the console *)
(** The file name without the path. *)
Theorem C56_file_name : forall (c : clog) (dir base : text), cOnlyName c = true -> ~ In "/"%char base ->
  getFileName c (dir ++ ["/"%char] ++ base) = base /\ getFileName c base = base.
Proof.
  intros c dir base O N. unfold getFileName. rewrite O. split.
  - cbn [app]. rewrite findLast_at by auto. apply skipn_at.
  - now rewrite (proj2 (findLast_none _ _) N).
Qed.
Theorem C56_file_name_full : forall (c : clog) file, cOnlyName c = false -> getFileName c file = file.
Proof. intros c file O. unfold getFileName. now rewrite O. Qed.

(** A setting holds until it is set again or reset. *)
Definition touches (s t : setting) : Prop :=
  match s, t with
  | _, Reset => True
  | SetColor _, SetColor _ | SetOnlyName _, SetOnlyName _ | SetFunction _, SetFunction _
  | SetAggregated _, SetAggregated _ | SetIdent _, SetIdent _ => True
  | _, _ => False
  end.
Definition hasSetting (s : setting) (c : clog) : Prop :=
  match s with
  | SetColor b => cColor c = b | SetOnlyName b => cOnlyName c = b | SetFunction b => cFunction c = b
  | SetAggregated b => cAggregated c = b | SetIdent t => cIdent c = t
  | Reset => cColor c = true /\ cOnlyName c = false /\ cFunction c = true /\ cAggregated c = true
  end.
Theorem C56_settings : forall (c : clog) (s : setting) (later : list setting),
  (forall t, In t later -> ~ touches s t) -> s <> Reset ->
  hasSetting s (fold_left (fun c t => cSet t c) later (cSet s c)).
Proof.
  intros c s later. assert (B : s <> Reset -> hasSetting s (cSet s c)) by (destruct s; simpl; auto).
  revert B. generalize (cSet s c) as d. induction later as [|t later IH]; intros d B H N; cbn [fold_left]; auto.
  apply IH; auto.
  - intros _. specialize (H t (or_introl eq_refl)). specialize (B N).
    destruct s, t; simpl in *; tauto.
  - intros u Hu. apply H. now right.
Qed.
(** reset() restores the initial settings, but not the indentation. *)
Theorem C56_reset : forall c, hasSetting Reset (cSet Reset c) /\ cSet Reset c = cSet (SetIdent (lit "...     ")) cNew /\
  cSet Reset c <> cNew.
Proof. intros c. splits; simpl; auto. discriminate. Qed.

(** The colours only insert colour codes: without them the output is that of the logger with colours off. *)
Definition noEsc (s : text) : Prop := ~ In "027"%char s.
Theorem C56_colours : forall (c : clog) line func file v rest,
  noEsc func -> noEsc file -> noEsc (cIdent c) -> (forall e, In e (v :: rest) -> noEsc (fst e) /\ noEsc (snd e)) ->
  uncoloured (writeVariable c line func file v rest) = writeVariable (cSet (SetColor false) c) line func file v rest.
Proof.
  intros c line func file v rest Nfu Nfi Nid Nv. unfold uncoloured, writeVariable.
  change (getFileName (cSet (SetColor false) c) file) with (getFileName c file).
  assert (Nn : noEsc (getFileName c file)).
  { unfold getFileName. destruct (cOnlyName c); auto. destruct (findLast "/"%char file); auto.
    intros Q. apply Nfi. rewrite <- (firstn_skipn (n + 1) file). apply in_or_app. now right. }
  rewrite <- (app_nil_r (cVarsRest c _ _ _ _ _)). rewrite <- (app_nil_r (cVarsRest (cSet (SetColor false) c) _ _ _ _ _)).
  assert (R : forall t, plainFrom false (cVarsRest c line func (getFileName c file) v rest ++ t) =
     cVarsRest (cSet (SetColor false) c) line func (getFileName c file) v rest ++ plainFrom false t).
  { revert v Nv. induction rest as [|w rest IH]; intros v Nv t; cbn [cVarsRest].
    - rewrite !app_nil_r. apply cVar_plain; auto; apply Nv; now left.
    - rewrite <- !app_assoc. rewrite cVar_plain; auto; try (apply Nv; now left). f_equal. apply IH.
      intros e He. apply Nv. now right. }
  change (cAggregated (cSet (SetColor false) c)) with (cAggregated c). destruct (cAggregated c).
  - rewrite <- !app_assoc. rewrite header_plain by noesc.
    change (header c) with (header (cSet (SetColor false) c)). f_equal. cbn [app plainFrom].
    destruct (ascii_dec "010" "027") as [Q|_]; [discriminate|]. f_equal. apply R.
  - cbn [app]. apply R.
Qed.

(** With texts of one line, there is one line per variable, and before them one for the place if the output is
    aggregated. *)
Theorem C56_lines : forall (c : clog) line func file v rest,
  lines func = 0 -> lines file = 0 -> lines (cIdent c) = 0 ->
  (forall e, In e (v :: rest) -> lines (fst e) = 0 /\ lines (snd e) = 0) ->
  lines (writeVariable c line func file v rest) = length (v :: rest) + (if cAggregated c then 1 else 0).
Proof.
  intros c line func file v rest Nfu Nfi Nid Nv. unfold writeVariable.
  assert (Nn : lines (getFileName c file) = 0).
  { unfold getFileName. destruct (cOnlyName c); auto. destruct (findLast "/"%char file); auto.
    rewrite <- (firstn_skipn (n + 1) file), lines_app in Nfi. lia. }
  rewrite lines_app.
  assert (R : lines (cVarsRest c line func (getFileName c file) v rest) = length (v :: rest)).
  { revert v Nv. induction rest as [|w rest IH]; intros v Nv; cbn [cVarsRest]; rewrite lines_app;
      destruct (Nv v (or_introl eq_refl)) as (L1 & L2); rewrite cVar_lines by auto.
    - reflexivity.
    - rewrite IH; [reflexivity|]. intros e He. apply Nv. now right. }
  rewrite R. destruct (cAggregated c).
  - rewrite lines_app, header_lines by auto. cbn. lia.
  - cbn. lia.
Qed.

(** Every message has its own line with the place. *)
Theorem C56_messages : forall (c : clog) prefix line func file m rest,
  writeMessage c prefix line func file m rest =
  concat (map (fun m => prefix ++ getFileName c file ++ lit ":" ++ decimal line ++
                        (if cFunction c then lit " <" ++ func ++ lit "> " else []) ++ lit "==> " ++
                        (if cColor c then "027"%char :: lit "[0;31m" else []) ++ m ++
                        (if cColor c then "027"%char :: lit "[0m" else []) ++ lit " <==" ++ ["010"%char]) (m :: rest)).
Proof.
  intros c prefix line func file m rest. unfold writeMessage. revert m.
  assert (E : forall m, cMsg c prefix line func (getFileName c file) m =
    prefix ++ getFileName c file ++ lit ":" ++ decimal line ++
                        (if cFunction c then lit " <" ++ func ++ lit "> " else []) ++ lit "==> " ++
                        (if cColor c then "027"%char :: lit "[0;31m" else []) ++ m ++
                        (if cColor c then "027"%char :: lit "[0m" else []) ++ lit " <==" ++ ["010"%char]).
  { intros m. unfold cMsg, header, color. rewrite <- !app_assoc. destruct (cFunction c), (cColor c); reflexivity. }
  induction rest as [|w rest IH]; intros m; cbn [cMsgs map concat]; rewrite E; [reflexivity|]. rewrite IH. reflexivity.
Qed.

(** Every variable has its own line; the place is in the line before the first (aggregated) or in every line. *)
Definition place (c : clog) (line : Z) (func file : text) : text :=
  lit "== " ++ getFileName c file ++ lit ":" ++ decimal line ++ (if cFunction c then lit " <" ++ func ++ lit "> " else []).
Theorem C56_variables : forall (c : clog) line func file v rest,
  writeVariable c line func file v rest =
  (if cAggregated c then place c line func file ++ ["010"%char] else []) ++
  concat (map (fun v => (if cAggregated c then cIdent c else place c line func file ++ lit " ") ++
                        lit "[[ " ++ (if cColor c then "027"%char :: lit "[0;33m" else []) ++ fst v ++
                        (if cColor c then "027"%char :: lit "[0m" else []) ++ lit " ]] ==> " ++
                        (if cColor c then "027"%char :: lit "[0;32m" else []) ++ snd v ++
                        (if cColor c then "027"%char :: lit "[0m" else []) ++ ["010"%char]) (v :: rest)).
Proof.
  intros c line func file v rest. unfold writeVariable.
  assert (E : forall v, cVar c line func (getFileName c file) v =
     (if cAggregated c then cIdent c else place c line func file ++ lit " ") ++
                        lit "[[ " ++ (if cColor c then "027"%char :: lit "[0;33m" else []) ++ fst v ++
                        (if cColor c then "027"%char :: lit "[0m" else []) ++ lit " ]] ==> " ++
                        (if cColor c then "027"%char :: lit "[0;32m" else []) ++ snd v ++
                        (if cColor c then "027"%char :: lit "[0m" else []) ++ ["010"%char]).
  { intros w. unfold cVar, header, color, place. rewrite <- !app_assoc. destruct (cAggregated c), (cFunction c), (cColor c); reflexivity. }
  assert (E' : header c (str "== ") line func (getFileName c file) = place c line func file) by (unfold header, place; destruct (cFunction c); reflexivity).
  rewrite E'. clear E'. f_equal.
  revert v. induction rest as [|w rest IH]; intros v; cbn [cVarsRest map concat]; rewrite E; [reflexivity|].
  rewrite IH. reflexivity.
Qed.
(** The printf version: one line for every variable, with the place. *)
Theorem C56_stdio_variables : forall line func file v rest,
  writeVarC line func file v rest =
  concat (map (fun v => lit "== " ++ file ++ lit ": " ++ decimal line ++ lit " <" ++ func ++ lit "> [[ " ++ fst v ++ lit " ]] ==> " ++ snd v ++ ["010"%char]) (v :: rest)).
Proof.
  intros line func file v rest. revert v.
  induction rest as [|w rest IH]; intros v; cbn [writeVarC map concat]; [unfold cVarC; reflexivity|]. rewrite IH. reflexivity.
Qed.

(** The printf macro exchanges the file and the function. *)
Theorem C56_finding_stdio : forall line func file name value,
  DBGVAR_STDIO line func file (name, value) [] =
  lit "== " ++ func ++ lit ": " ++ decimal line ++ lit " <" ++ file ++ lit "> [[ " ++ name ++ lit " ]] ==> " ++ value ++ ["010"%char].
Proof. intros. unfold DBGVAR_STDIO. cbn [writeVarC]. rewrite app_nil_r. reflexivity. Qed.

(** * Instances *)
Definition calls0 : list (call (text * jv)) :=
  [ CVars 12 (lit "C:\src\main.cpp") (lit "v[""k""]", (lit "[ 1, 2 ]", JArr [JNum 1; JNum 2])) [(lit "ok", (lit "true", JBool true))];
    CPlain (lit "n", (lit "-7", JNum (-7))) [];
    CVars 13 (lit "a.cpp") (lit "n", (lit "3", JNum 3)) [] ].
Lemma pr s : forallb (fun c => 32 <=? nat_of_ascii c) s = true -> printable s.
Proof. intros H c Hc. apply Nat.leb_le. rewrite forallb_forall in H. auto. Qed.
Lemma arr12 : jtext (JArr [JNum 1; JNum 2]) (lit "[ 1, 2 ]").
Proof.
  apply (J_arr (JNum 1) [JNum 2] (lit " 1, 2 ")). apply (JE_cons (JNum 1) [JNum 2] (lit " 1") (lit " 2 ")).
  - apply (jws_l (JNum 1) (lit " ") (decimal 1)); [apply ws_space|apply J_int].
  - apply JE_one. apply (J_ws (JNum 2) (lit " ") (decimal 2) (lit " ")); try apply ws_space. apply J_int.
Qed.
Example C54_case : (forall c, In c calls0 -> callOk c) /\ exists l s,
  (l0 <- jCalls (map (mapCall fst) calls0) (jNew (lit "DBG.json") (fun _ => None)) ;; jDestroy l0) = Ok l /\
  jFiles l (lit "DBG.json") = Some s /\
  jtext (JObj [(lit "logs", JArr [
    JObj [(lit "gInd", JNum 0); (lit "file", JStr (lit "C:\src\main.cpp")); (lit "line", JNum 12); (lit "expr", JStr (lit "v[""k""]")); (lit "data", JArr [JNum 1; JNum 2])];
    JObj [(lit "gInd", JNum 0); (lit "file", JStr (lit "C:\src\main.cpp")); (lit "line", JNum 12); (lit "expr", JStr (lit "ok")); (lit "data", JBool true)];
    JObj [(lit "expr", JStr (lit "n")); (lit "data", JNum (-7))];
    JObj [(lit "gInd", JNum 1); (lit "file", JStr (lit "a.cpp")); (lit "line", JNum 13); (lit "expr", JStr (lit "n")); (lit "data", JNum 3)]])]) s.
Proof.
  assert (V : forall c, In c calls0 -> callOk c).
  { intros c [<-|[<-|[<-|[]]]]; (split; [intros e He; cbn [varsOf In] in He|]).
    - destruct He as [<-|[<-|[]]]; (split; [apply pr; reflexivity|]); [apply arr12|apply J_true].
    - unfold fileOk. splits; [apply pr; reflexivity|vm_compute; intuition discriminate|].
      intros [|[|i]] L; try lia; discriminate.
    - destruct He as [<-|[]]. split; [apply pr; reflexivity|apply J_int].
    - exact I.
    - destruct He as [<-|[]]. split; [apply pr; reflexivity|apply J_int].
    - unfold fileOk. splits; [apply pr; reflexivity|vm_compute; intuition discriminate|].
      intros [|[|i]] L; try lia; discriminate. }
  split; auto.
  destruct (C54_json_log (lit "DBG.json") (fun _ => None) calls0) as (l & s & E & F & J & _); auto; [discriminate|vm_compute; discriminate|].
  exists l, s. auto.
Qed.
Definition hcalls0 : list hcall :=
  [ mkHC 12 (lit "C:\src\main.cpp") (lit "v", (lit "[ 1, 2 ]", JArr [JNum 1; JNum 2])) [(lit "ok", (lit "true", JBool true))];
    mkHC 13 (lit "a.cpp") (lit "n", (lit "3", JNum 3)) [] ].
Example C60_case : forall c, In c hcalls0 -> hcallOk c.
Proof.
  assert (N : forall x s, forallb (fun c => if in_dec ascii_dec c x then false else true) s = true -> forall c, In c s -> ~ In c x).
  { intros x s H c Hc. rewrite forallb_forall in H. specialize (H c Hc). destruct (in_dec ascii_dec c x); auto. discriminate. }
  intros c [<-|[<-|[]]]; (split; [refine (N _ _ _); reflexivity|]); intros e He; cbn [hcVar hcRest In] in He.
  - destruct He as [<-|[<-|[]]]; (split; [refine (N _ _ _); reflexivity|]); [apply arr12|apply J_true].
  - destruct He as [<-|[]]. split; [refine (N _ _ _); reflexivity|apply (J_int 3)].
Qed.
Example C56_case :
  getFileName (cSet (SetOnlyName true) cNew) (lit "/home/u/main.cpp") = lit "main.cpp" /\
  uncoloured (writeVariable cNew 3 (lit "main") (lit "a.cpp") (lit "x", lit "1") [(lit "y", lit "2")]) =
    lit "== a.cpp:3 <main> " ++ ["010"%char] ++ lit "||     [[ x ]] ==> 1" ++ ["010"%char] ++ lit "||     [[ y ]] ==> 2" ++ ["010"%char].
Proof. split; reflexivity. Qed.

Print Assumptions C54_json_log.
Print Assumptions C54_unambiguous.
Print Assumptions C54_log_read.
Print Assumptions C54_no_call.
Print Assumptions C54_groups.
Print Assumptions C54_call_limit.
Print Assumptions C60_call_limit.
Print Assumptions C54_finding_recreate.
Print Assumptions C54_finding_destroy_twice.
Print Assumptions C55_json_doubling.
Print Assumptions C55_json_complete.
Print Assumptions C55_html_doubling.
Print Assumptions C55_doubling_injective.
Print Assumptions C60_html_log.
Print Assumptions C60_finding_name.
Print Assumptions C56_file_name.
Print Assumptions C56_file_name_full.
Print Assumptions C56_settings.
Print Assumptions C56_reset.
Print Assumptions C56_colours.
Print Assumptions C56_lines.
Print Assumptions C56_messages.
Print Assumptions C56_finding_stdio.
Print Assumptions C56_variables.
Print Assumptions C56_stdio_variables.

(** C96: which printer a value reaches, and what the loggers make of it. *)
From Coq Require Import String Ascii ZArith Lia.
From Verif Require Import Base P_Base M_Traits M_Print M_Log S_Json S_Print S_Log P_Print P_Json P_JsonParse P_Log M_Overload S_Overload P_Overload T_Print T_Log M_Detect.
Local Open Scope list_scope.
Local Open Scope nat_scope.

(** * Both versions *)
(** The stream version writes every complete value (classes without traits, PrintTo or operator<< as a dump of their memory). *)
Theorem C96_total : forall tr v, complete tr v -> exists s, exportX false tr v = Some s.
Proof. exact stream_complete. Qed.
(** On the values of C53 this is the export of C53 - so C53 holds of what the overloads select. *)
Theorem C96_extends : forall io tr v, exportX io tr (embed v) = export (if io then stdio else stream) tr v.
Proof. exact exX_embed. Qed.
(** Both versions write the same if every leaf is regular, *)
Theorem C96_same : forall tr v, (forall w, leafOf w v -> regular w) -> exportX true tr v = exportX false tr v.
Proof. exact regular_same. Qed.
(** and differ otherwise: string literals and pointers become truth values, *)
Theorem C96_finding_literal : forall tr s, exportX true tr (XArr s) = Some (str "true") /\ exportX false tr (XArr s) = Some s.
Proof. split; reflexivity. Qed.
Theorem C96_finding_pointer : forall tr a, exportX true tr (XPtr (Some a)) = Some (str "true") /\ exportX false tr (XPtr (Some a)) = Some a.
Proof. split; reflexivity. Qed.
(** signed and unsigned char are numbers in one and characters in the other, without quotation marks, *)
Theorem C96_finding_small : forall tr z, exportX true tr (XSChar z) = Some (decimal z) /\ exportX false tr (XSChar z) = Some [charOf z] /\
  exportX true tr (XUChar z) = Some (decimal z) /\ exportX false tr (XUChar z) = Some [charOf z].
Proof. intros tr z. splits; reflexivity. Qed.
(** a class that has only operator<< can be printed in one version only; PrintTo(x) alone is not looked at by either. *)
Theorem C96_finding_class : forall tr n b s,
  exportX true tr (XClass n b None None (Some s)) = None /\ exportX false tr (XClass n b None None (Some s)) = Some s /\
  exportX true tr (XClass n b (Some s) None None) = None /\
  exportX true tr (XClass n b None (Some s) None) = Some (dump true n b).
Proof. intros. splits; reflexivity. Qed.
(** Memory dumps: different memory, different text; two digits and a blank for every byte. *)
Theorem C96_dump : forall io n a b, dump io n a = dump io n b -> a = b.
Proof. exact dump_inj. Qed.
Theorem C96_dump_length : forall n a, a <> [] -> length (dump true n a) = 3 * length a - 1.
Proof.
  intros n a H. unfold dump. induction a as [|c a IH]; [congruence|]. cbn [hexBytes]. rewrite !app_length.
  destruct a as [|d a]; [reflexivity|]. rewrite IH by discriminate. change (length (hexByte true c)) with 2. change (length (str " ")) with 1.
  cbn [length]. lia.
Qed.

(** The digits: 0-9 and, in the iostream version, A-F, otherwise a-f; the first digit counts sixteen times. *)
Definition hexDigits (upper : bool) : text := str "0123456789" ++ str (if upper then "ABCDEF" else "abcdef").
Theorem C96_dump_digits : forall n c, exists h l, h < 16 /\ l < 16 /\ nat_of_ascii c = 16 * h + l /\
  (let digit up i := nth i (hexDigits up) " "%char in
   dump true n [c] = [digit true h; digit true l] /\ dump false n [c] = n ++ str "(" ++ [digit false h; digit false l] ++ str ")") /\
  forall d r, dump true n (c :: d :: r) = dump true n [c] ++ str " " ++ dump true n (d :: r).
Proof.
  intros n c. exists (nat_of_ascii c / 16), (nat_of_ascii c mod 16). splits.
  - apply Nat.div_lt_upper_bound; [lia|]. apply nat_ascii_bounded.
  - apply Nat.mod_upper_bound. lia.
  - apply Nat.div_mod. lia.
  - destruct c as [[] [] [] [] [] [] [] []]; split; vm_compute; reflexivity.
  - intros d r. unfold dump. cbn [hexBytes]. rewrite app_nil_r. reflexivity.
Qed.
Print Assumptions C96_dump_digits.

(** * Which printer *)
(** The printer of a type with any combination of features, spelled out: the first line that applies. *)
Theorem C96_priority : forall k,
  printerOf k =
  Some (if c_toStream k then PrCustom else if c_textType k then PrText else if c_begin k then PrIterable
        else if c_bracket k && c_size k then PrIndexable else if c_traits k then PrTraited else if c_ostream k then PrExportable
        else if c_tuple k then PrTuple else PrAny).
Proof.
  intros k. unfold printerOf, classSelector, printers, canPrint.
  destruct (c_toStream k), (c_textType k), (c_begin k), (c_bracket k && c_size k), (c_traits k), (c_ostream k), (c_tuple k); reflexivity.
Qed.
(** A class that is both iterable and has traits is serialized by its members, but printed by its elements. *)
Theorem C96_contrast : forall (k : caps) (p : pcaps),
  k_traits k = true -> c_traits p = true -> k_begin k = true -> c_begin p = true ->
  k_writeFn k = false -> k_simple k = false -> k_toBool k = false -> compactContainer k = false ->
  c_toStream p = false -> c_textType p = false ->
  writer_of k = Some W_Traited /\ printerOf p = Some PrIterable.
Proof.
  intros k p T1 T2 B1 B2 W S1 S2 C P1 P2. split.
  - unfold writer_of, classSelector, writeCompiles, writes. now rewrite W, S1, S2, C, T1.
  - rewrite C96_priority. now rewrite P1, P2, B2.
Qed.

(** * The loggers *)
(** A program logs variables of any loggable types: the file is JSON with the values of exactly these variables. (C54 with the texts that really reach
    the file.) *)
Lemma loggable_text tr e : (forall c ms nm i, tr c = Some ms -> In (nm, i) ms -> jsonPlain nm) -> loggable tr e ->
  exists s, streamText true tr (embed (fst (snd e))) = Some s /\ jtext (snd (snd e)) s.
Proof.
  intros N (_ & (t & T) & J & NT). destruct e as (n & v & j). cbn [fst snd] in *.
  destruct (export_total stream tr anyKind jsonPlain) with (t := t) (v := v) as (s & E); auto.
  { intros; eexists; reflexivity. }
  exists s. split.
  - unfold streamText. replace (isTup (embed v)) with false by (destruct v; try reflexivity; contradiction).
    change (best (candidates true false)) with (Some ToStream). rewrite exX_embed. exact E.
  - eapply C53_json; eauto.
Qed.

Lemma texts_of tr (vs : list (text * (pval * jv))) : (forall c ms nm i, tr c = Some ms -> In (nm, i) ms -> jsonPlain nm) ->
  (forall e, In e vs -> loggable tr e) ->
  exists tj, jsonTexts tr (map (fun e => (fst e, embed (fst (snd e)))) vs) = Some (map txt tj) /\
    map val tj = map (fun e => (fst e, snd (snd e))) vs /\ forall x, In x tj -> varOk x.
Proof.
  intros N. induction vs as [|e vs IH]; intros L.
  - exists []. splits; try reflexivity. intros x [].
  - destruct IH as (tj & E1 & E2 & O); [intros x Hx; apply L; now right|].
    assert (Le := L e (or_introl eq_refl)). destruct (loggable_text tr e N Le) as (s & Es & J).
    exists ((fst e, (s, snd (snd e))) :: tj). splits.
    + cbn [map jsonTexts]. rewrite Es. cbn [obind]. rewrite E1. reflexivity.
    + cbn [map]. now rewrite E2.
    + intros x [<-|Hx]; auto. split; cbn [fst snd]; [apply Le|exact J].
Qed.
Lemma calls_of tr (cs : list (mcall (pval * jv))) : (forall c ms nm i, tr c = Some ms -> In (nm, i) ms -> jsonPlain nm) ->
  (forall c, In c cs -> mcallOk tr c) ->
  exists ts, sequence (map (jsonCall tr) (map (mapM (fun x => embed (fst x))) cs)) = Some (map (mapCall fst) ts) /\
    map (mapCall snd) ts = map (fun c => toCall (mapM snd c)) cs /\ (forall c, In c ts -> callOk c) /\ length ts = length cs.
Proof.
  intros N. induction cs as [|c cs IH]; intros L.
  - exists []. splits; try reflexivity. intros x [].
  - destruct IH as (ts & E1 & E2 & O & Ln); [intros x Hx; apply L; now right|].
    assert (Lc := L c (or_introl eq_refl)). destruct c as (((line & file) & v) & rest). destruct Lc as (F & Lv).
    destruct (texts_of tr (v :: rest) N Lv) as (tj & T1 & T2 & T3).
    destruct tj as [|t tj]; [discriminate T2|].
    exists (CVars line file t tj :: ts). splits.
    + cbn [map mapM]. cbn [sequence]. unfold jsonCall at 1. change ((fst v, embed (fst (snd v))) :: map (fun e => (fst e, embed (fst (snd e)))) rest)
        with (map (fun e : text * (pval * jv) => (fst e, embed (fst (snd e)))) (v :: rest)).
      rewrite T1. cbn [map]. cbn [map] in E1. rewrite E1. reflexivity.
    + cbn [map]. f_equal; auto. cbn [map] in T2. injection T2 as Q1 Q2 Q3. cbn [mapCall toCall mapM]. f_equal.
      * destruct t as (a & b & c), v as (a' & b' & c'). cbn in *. congruence.
      * exact Q3.
    + intros x [<-|Hx]; auto. split; auto.
    + cbn. now rewrite Ln.
Qed.
Theorem C96_json_log : forall tr name fs (calls : list (mcall (pval * jv))),
  (forall c ms nm i, tr c = Some ms -> In (nm, i) ms -> jsonPlain nm) ->
  calls <> [] -> (forall c, In c calls -> mcallOk tr c) -> (Z.of_nat (length calls) <= 2147483647)%Z ->
  exists r l s, jsonCalls tr (map (mapM (fun x => embed (fst x))) calls) (jNew name fs) = Some r /\
    (l0 <- r ;; jDestroy l0) = Ok l /\ jFiles l name = Some s /\
    jtext (JObj [(lit "logs", JArr (records 0 (map (fun c => toCall (mapM snd c)) calls)))]) s /\
    forall m, m <> name -> jFiles l m = fs m.
Proof.
  intros tr name fs calls N NE V L.
  destruct (calls_of tr calls N V) as (ts & E1 & E2 & O & Ln).
  destruct (C54_json_log name fs ts) as (l & s & El & Fs & J & Ot); auto.
  - intros ->. destruct calls; [congruence|discriminate].
  - now rewrite Ln.
  - exists (jCalls (map (mapCall fst) ts) (jNew name fs)), l, s. splits; auto.
    + unfold jsonCalls. now rewrite E1.
    + rewrite <- E2. exact J.
Qed.

Lemma spoiled_program : forall tr name fs (before : list (mcall (pval * jv))) line file v rest good nm x t tail after r l s j,
  (forall c ms m i, tr c = Some ms -> In (m, i) ms -> jsonPlain m) ->
  (forall c, In c before -> mcallOk tr c) -> (Z.of_nat (length before) <= 2147483647)%Z ->
  fileOk file -> printable nm -> (forall e, In e good -> loggable tr e) ->
  v :: rest = map (fun e : text * (pval * jv) => (fst e, embed (fst (snd e)))) good ++ (nm, x) :: tail -> streamText true tr x = Some t -> unread t ->
  jsonCalls tr (map (mapM (fun x => embed (fst x))) before ++ (line, file, v, rest) :: after) (jNew name fs) = Some r ->
  (l0 <- r ;; jDestroy l0) = Ok l -> jFiles l name = Some s -> ~ jtext j s.
Proof.
  intros tr name fs before line file v rest good nm x t tail after r l s j N V L F P G Q ST U E1 E2 E3.
  destruct (calls_of tr before N V) as (ts & S1 & S2 & O & Ln).
  unfold jsonCalls in E1. rewrite map_app in E1. cbn [map] in E1.
  destruct (sequence _) as [all|] eqn:Es in E1; [|discriminate]. cbn [option_map] in E1. injection E1 as <-.
  apply sequence_spec in Es. apply sequence_spec in S1. unfold mcall in *. rewrite S1 in Es.
  destruct (texts_of tr good N G) as (tj & T1 & T2 & T3).
  assert (A : exists us, all = map (mapCall fst) ts ++ us /\
     (jsonCall tr (line, file, v, rest) :: map (jsonCall tr) after) = map Some us).
  { clear -Es. revert all Es. generalize (map (mapCall fst) ts) as x. induction x as [|a x IH]; intros all Es.
    - exists all. split; auto.
    - destruct all as [|b all]; [discriminate|]. cbn [map app] in Es. injection Es as -> Es.
      destruct (IH all Es) as (us & -> & Eu). exists us. split; auto. }
  destruct A as (us & -> & Eu). destruct us as [|u us]; [discriminate|]. cbn [map] in Eu.
  apply (f_equal (hd None)) in Eu. cbn [hd] in Eu.
  change (jsonCall tr (line, file, v, rest)) with (match jsonTexts tr (v :: rest) with Some (t :: ts) => Some (CVars line file t ts) | _ => None end) in Eu.
  rewrite Q in Eu.
  assert (T : forall ys, jsonTexts tr (map (fun e : text * (pval * jv) => (fst e, embed (fst (snd e)))) good ++ (nm, x) :: tail) = Some ys ->
     exists zs, ys = map txt tj ++ (nm, t) :: zs).
  { clear -T1 ST. revert tj T1. induction good as [|e good IH]; intros tj T1 ys Ey.
    - cbn [map] in T1. cbn in T1. destruct tj; [|discriminate]. cbn [map app jsonTexts] in Ey.
      rewrite ST in Ey. cbn [obind] in Ey.
      destruct (jsonTexts tr tail) as [zs|]; [|discriminate]. injection Ey as <-. exists zs. reflexivity.
    - cbn [map app jsonTexts] in *. destruct (streamText true tr (embed (fst (snd e)))) as [x0|]; cbn [obind] in *; [|discriminate].
      destruct (jsonTexts tr (map _ good)) as [w|] eqn:Q; cbn [option_map] in T1; [|discriminate].
      destruct tj as [|tj0 tj]; [discriminate|]. cbn [map] in T1. injection T1 as T0 T0' T1.
      destruct (jsonTexts tr (_ ++ _)) as [w2|] eqn:Q2 in Ey; [|discriminate]. cbn [option_map] in Ey. injection Ey as <-.
      destruct (IH tj) with (ys := w2) as (zs & ->); auto; [now rewrite T1|].
      exists zs. cbn [map app]. unfold txt at 1. now rewrite T0, T0'. }
  destruct (jsonTexts tr _) as [[|t0 ts0]|] eqn:Et in Eu; try discriminate. injection Eu as <-.
  destruct (T _ Et) as (zs & Z).
  eapply (spoil_history t name fs ts line file t0 ts0 tj nm zs us); eauto.
  now rewrite Ln.
Qed.
(** Finding: a variable of type std::tuple. The file is a std::ofstream, so that exportVariable(file, tuple) is taken for "print the file with the traits
    given in the tuple": nothing reaches the file. After any calls that were fine, one such call, and any further calls (whatever they log), the file is
    not JSON. *)
Theorem C96_finding_json_tuple : forall tr name fs (before : list (mcall (pval * jv))) line file v rest good nm tup tail after r l s j,
  (forall c ms m i, tr c = Some ms -> In (m, i) ms -> jsonPlain m) ->
  (forall c, In c before -> mcallOk tr c) -> (Z.of_nat (length before) <= 2147483647)%Z ->
  fileOk file -> printable nm -> (forall e, In e good -> loggable tr e) ->
  v :: rest = map (fun e : text * (pval * jv) => (fst e, embed (fst (snd e)))) good ++ (nm, XTup tup) :: tail ->
  jsonCalls tr (map (mapM (fun x => embed (fst x))) before ++ (line, file, v, rest) :: after) (jNew name fs) = Some r ->
  (l0 <- r ;; jDestroy l0) = Ok l -> jFiles l name = Some s -> ~ jtext j s.
Proof.
  intros tr name fs before line file v rest good nm tup tail after r l s j N V L F P G Q E1 E2 E3.
  eapply (spoiled_program tr name fs before line file v rest good nm (XTup tup) []); eauto using unread_nil.
Qed.
(** Everything else reaches the file, and on the console tuples do as well. *)
Theorem C96_reaches : forall derived tr v, (derived = false \/ forall l, v <> XTup l) -> streamText derived tr v = exportX false tr v.
Proof.
  intros derived tr v H. unfold streamText.
  assert (E : best (candidates derived (isTup v)) = Some ToStream); [|now rewrite E].
  destruct derived; [|destruct (isTup v); reflexivity].
  destruct v; try reflexivity. destruct H as [H|H]; [discriminate|]. exfalso. eapply H; reflexivity.
Qed.
(** The HTML logger writes a row without a value for a tuple. *)
Theorem C96_finding_html_tuple : forall tr l, htmlText tr (XTup l) = Some [].
Proof. reflexivity. Qed.
(** The console gets the stream version of every value; so does the HTML log of every value other than an array and a std::tuple. *)
Theorem C96_console : forall tr v, consoleText tr v = exportX false tr v.
Proof. intros tr v. apply C96_reaches. left; reflexivity. Qed.
Theorem C96_html : forall tr v, (forall l, v <> XTup l) -> (forall s, v <> XArr s) -> htmlText tr v = exportX false tr v.
Proof.
  intros tr v H H'. unfold htmlText. replace (decay v) with v by (destruct v; try reflexivity; destruct (H' s eq_refl)).
  apply C96_reaches. right. exact H.
Qed.
(** A null pointer, and the character written for a char that is a number. *)
Theorem C96_null_pointer : forall tr, exportX true tr (XPtr None) = Some (str "false") /\ exportX false tr (XPtr None) = Some (str "0").
Proof. split; reflexivity. Qed.
Theorem C96_char : forall z, Z.of_nat (nat_of_ascii (charOf z)) = (z mod 256)%Z.
Proof.
  intros z. unfold charOf. assert (0 <= z mod 256 < 256)%Z by (apply Z.mod_pos_bound; reflexivity).
  rewrite nat_ascii_embedding by lia. rewrite Z2Nat.id by lia. reflexivity.
Qed.
(** A string literal: with quotation marks in the HTML log (passed by copy, as char pointer), without in the JSON log and on the console (by reference). *)
Theorem C96_finding_literal_logs : forall tr s, ~ In "000"%char s ->
  htmlText tr (XArr s) = Some ([""""%char] ++ s ++ [""""%char]) /\ streamText true tr (XArr s) = Some s /\ consoleText tr (XArr s) = Some s.
Proof.
  intros tr s H. splits; try reflexivity. unfold htmlText, decay. rewrite upto0_id by auto. reflexivity.
Qed.
(** A JSON log with a literal as variable is therefore not JSON either, unless the text happens to be; a std::string is fine. *)
Example C96_literal_json : streamText true (fun _ => None) (XArr (str "some text")) = Some (str "some text") /\
  (forall v, ~ jtext v (str "some text")) /\
  streamText true (fun _ => None) (XString (str "some text")) = Some (str """some text""").
Proof.
  splits; try reflexivity. intros v J. pose proof (proj1 (proj1 parse_all v _ J) [] I 100 ltac:(vm_compute; lia)) as Q.
  vm_compute in Q. discriminate Q.
Qed.
(** DBGCHECK says "check line"; DBGCHECK_STDIO says "true". *)
Theorem C96_finding_check : forall tr c line func file,
  DBGCHECK tr c line func file = Some (writeMessage c (str "--") line func file (str "check line") []) /\
  DBGCHECK_STDIO tr line func file =
    Some (str "-- " ++ file ++ str ": " ++ digits line ++ str " <" ++ func ++ str "> ==> true <==" ++ ["010"%char]).
Proof. split; reflexivity. Qed.

(** ** Instances *)
Definition exCall : mcall (pval * jv) :=
  (12%Z, str "main.cpp", (str "v", (PSeq true [PTup [PNum K_int 1; PBool true]], JArr [JArr [JNum 1; JBool true]])), [(str "x", (PNum K_int 3, JNum 3))]).
Lemma exLoggable : forall e, In e (snd (fst exCall) :: snd exCall) -> loggable (fun _ => None) e.
Proof.
  intros e [<-|[<-|[]]]; unfold loggable; cbn [fst snd]; splits; auto.
  - intros c [<-|[]]. vm_compute. lia.
  - exists (TSeq true (TTup [TNum K_int; TBool])). constructor. intros v [<-|[]]. constructor; [reflexivity|].
    intros [|[|[|i]]] t v E1 E2; try discriminate; injection E1 as <-; injection E2 as <-; constructor. exact I.
  - repeat constructor.
  - exact I.
  - intros c [<-|[]]. vm_compute. lia.
  - exists (TNum K_int). constructor. exact I.
  - constructor.
Qed.
Lemma exCallOk : mcallOk (fun _ => None) exCall.
Proof.
  split; [|exact exLoggable]. split; [|split].
  - intros c H. repeat (destruct H as [<-|H]; [vm_compute; lia|]). contradiction.
  - intros H. repeat (destruct H as [H|H]; [discriminate|]). contradiction.
  - intros [|[|i]] L; [discriminate|discriminate|lia].
Qed.
Example C96_instance : exists r l s,
  jsonCalls (fun _ => None) (map (mapM (fun x => embed (fst x))) [exCall; exCall]) (jNew (str "log.json") (fun _ => None)) = Some r /\
  (l0 <- r ;; jDestroy l0) = Ok l /\ jFiles l (str "log.json") = Some s /\
  jtext (JObj [(lit "logs", JArr (records 0 (map (fun c => toCall (mapM snd c)) [exCall; exCall])))]) s.
Proof.
  destruct (C96_json_log (fun _ => None) (str "log.json") (fun _ => None) [exCall; exCall]) as (r & l & s & H1 & H2 & H3 & H4 & _).
  - discriminate.
  - discriminate.
  - intros c [<-|[<-|[]]]; exact exCallOk.
  - vm_compute. discriminate.
  - exists r, l, s. auto.
Qed.
(** The program that spoils its log exists and runs: the hypotheses of the finding are met. *)
Example C96_tuple_instance : exists r l s,
  jsonCalls (fun _ => None) (map (mapM (fun x => embed (fst x))) [exCall] ++
     [(13%Z, str "main.cpp", (str "t", XTup [XNum K_int 1; XNum K_int 2]), []); (14%Z, str "main.cpp", (str "y", XBool true), [])])
     (jNew (str "log.json") (fun _ => None)) = Some r /\
  (l0 <- r ;; jDestroy l0) = Ok l /\ jFiles l (str "log.json") = Some s /\ forall j, ~ jtext j s.
Proof.
  do 3 eexists. splits; [vm_compute; reflexivity|vm_compute; reflexivity|vm_compute; reflexivity|].
  intros j J.
  refine (C96_finding_json_tuple (fun _ => None) (str "log.json") (fun _ => None) [exCall] 13%Z (str "main.cpp") (str "t", XTup [XNum K_int 1; XNum K_int 2]) [] []
    (str "t") [XNum K_int 1; XNum K_int 2] [] [(14%Z, str "main.cpp", (str "y", XBool true), [])] _ _ _ j _ _ _ _ _ _ eq_refl _ _ _ J).
  - discriminate.
  - intros c [<-|[]]; exact exCallOk.
  - vm_compute. discriminate.
  - exact (proj1 exCallOk).
  - intros c [<-|[]]. vm_compute. lia.
  - intros e [].
  - vm_compute. reflexivity.
  - vm_compute. reflexivity.
  - vm_compute. reflexivity.
Qed.
Example C96_complete_instance :
  exists s, exportX false exTr (XSeq false [XObj 1 [XSChar 65; XPtr None; XTup [XArr (str "a b"); XClass (str "N") [] None None None]]]) = Some s.
Proof.
  apply C96_total. apply K_seq. intros v [<-|[]]. eapply K_obj; [reflexivity|discriminate| |].
  - intros nm i [E|[E|[]]]; injection E as <- <-; simpl; lia.
  - intros v [<-|[<-|[<-|[]]]].
    + apply K_leaf. exact I.
    + apply K_leaf. exact I.
    + apply K_tup. intros v [<-|[<-|[]]]; apply K_leaf; exact I.
Qed.
Example C96_dump_instance : dump false (str "1S") ["000"; "255"; "010"]%char = str "1S(00 ff 0a)" /\
  dump true (str "1S") ["000"; "255"; "010"]%char = str "00 FF 0A".
Proof. vm_compute. split; reflexivity. Qed.
Print Assumptions C96_total.
Print Assumptions C96_extends.
Print Assumptions C96_same.
Print Assumptions C96_dump.
Print Assumptions C96_dump_length.
Print Assumptions C96_priority.
Print Assumptions C96_contrast.
Print Assumptions C96_json_log.
Print Assumptions C96_finding_json_tuple.
Print Assumptions C96_reaches.
Print Assumptions C96_finding_literal_logs.
Print Assumptions C96_finding_check.
Print Assumptions C96_console.
Print Assumptions C96_html.
Print Assumptions C96_null_pointer.
Print Assumptions C96_char.

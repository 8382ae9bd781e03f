(** C97: floating point numbers in exported variables and in logs; which variables make a log unreadable. *)
From Coq Require Import String Ascii ZArith QArith Qabs Lia.
From Verif Require Import Base P_Base M_Traits M_Print M_Log S_Stream P_Stream P_Stream2 S_Json P_JNum S_Print S_Log P_Print P_Json P_JsonParse P_Log M_Overload S_Overload
  P_Overload P_NotJson T_Print T_Log T_Overload.
Local Open Scope list_scope.
Local Open Scope nat_scope.

(** * Numbers *)
(** [round6] is the nearest number with six significant digits; the error is at most five millionths; rounding again changes nothing. *)
Theorem C97_six_digits : forall q, nearest_six q (round6 q) /\ (Qabs (round6 q - q) <= (5 # 1000000) * Qabs q)%Q /\ round6 (round6 q) = round6 q.
Proof. intros q. splits; [apply round6_nearest|apply round6_error|apply putQ_round]. Qed.
(** Every finite number is written as a JSON number with that value, by either version of the export. *)
Theorem C97_number : forall q, jnumber (round6 q) (realText (Fin q)) /\ jtext (JRat (round6 q)) (realText (Fin q)) /\
  forall io tr, exportX io tr (XReal (Fin q)) = Some (realText (Fin q)).
Proof. intros q. splits; [apply putQ_jnumber|apply J_num, putQ_jnumber|intros [|]; reflexivity]. Qed.
(** Two numbers have the same text exactly if they have the same six digits. *)
Theorem C97_same_text : forall x y, realText x = realText y <-> sixAlike x y.
Proof. exact real_same. Qed.
(** The text of a number read back by a stream has the six digits: writing and reading again is stable. *)
Theorem C97_read_back : forall q, M_Stream.getDec (M_Stream.mkI (realText (Fin q)) false) = (Some (round6 q), M_Stream.mkI [] false).
Proof. intros q. apply jnumber_getDec, putQ_jnumber. Qed.
(** JSON numbers have one value only. *)
Theorem C97_unambiguous : forall p q s, jnumber p s -> jnumber q s -> p = q.
Proof. exact jnumber_unique. Qed.

(** * Which texts are JSON *)
(** The text of a variable is JSON if and only if the variable has a JSON value - no infinite number, NaN or pair whose first part is not text in any
    printed part of it - and then it is JSON for this value. *)
Theorem C97_json_iff : forall (tr : nat -> option (list (text * nat))) (t : pty) (v : pval) (s : text),
  (forall c ms nm i, tr c = Some ms -> In (nm, i) ms -> jsonPlain nm) ->
  hasTy tr anyKind jsonPlain t v -> export stream tr v = Some s ->
  ((exists j, jtext j s) <-> exists j, jsonOf tr v j) /\ forall j, jsonOf tr v j -> jtext j s.
Proof.
  intros tr t v s N H E. split; [split|].
  - intros (j & J). destruct (json_or_bad tr anyKind N t v s H E) as [(j' & D & _)|B]; eauto. exfalso. exact (BV_not_json s j B J).
  - intros (j & D). exists j. eapply C53_json; eauto.
  - intros j D. eapply C53_json; eauto.
Qed.

(** * Logs *)
Definition varsOfM {A} (c : mcall A) : list (text * A) := snd (fst c) :: snd c.
(** What a variable must be for the log to be JSON: it has a JSON value and is not itself a tuple. *)
Definition jsonable (tr : nat -> option (list (text * nat))) (v : pval) : Prop :=
  (exists j, jsonOf tr v j) /\ match v with PTup _ => False | _ => True end.
Definition typed (tr : nat -> option (list (text * nat))) (v : pval) : Prop := exists t, hasTy tr anyKind jsonPlain t v.
Definition plainCall (tr : nat -> option (list (text * nat))) (c : mcall pval) : Prop :=
  fileOk (snd (fst (fst c))) /\ forall e, In e (varsOfM c) -> printable (fst e) /\ typed tr (snd e).

Section L.
Variable tr : nat -> option (list (text * nat)).
Hypothesis names : forall c ms nm i, tr c = Some ms -> In (nm, i) ms -> jsonPlain nm.
Lemma good_or_spoils v : typed tr v -> jsonable tr v \/ exists t, streamText true tr (embed v) = Some t /\ unread t.
Proof using names.
  intros (t & H).
  destruct (match v with PTup l => true | _ => false end) eqn:T.
  - right. destruct v; try discriminate. exists []. split; [reflexivity|apply unread_nil].
  - destruct (export_total stream tr anyKind jsonPlain) with (t := t) (v := v) as (s & E); auto; [intros; eexists; reflexivity|].
    destruct (json_or_bad tr anyKind names t v s H E) as [(j & D & _)|B].
    + left. split; [eauto|]. destruct v; auto; discriminate.
    + right. exists s. split; [|now apply BV_unread].
      unfold streamText. replace (isTup (embed v)) with false by (destruct v; try reflexivity; discriminate).
      change (best (candidates true false)) with (Some ToStream). rewrite exX_embed. exact E.
Qed.
Lemma with_json (vs : list (text * pval)) : (forall e, In e vs -> printable (fst e) /\ typed tr (snd e)) -> (forall e, In e vs -> jsonable tr (snd e)) ->
  exists ws, (forall e, In e ws -> loggable tr e) /\ map (fun e => (fst e, fst (snd e))) ws = vs.
Proof.
  induction vs as [|e vs IH]; intros H G.
  - exists []. split; [intros e []|reflexivity].
  - destruct IH as (ws & A & B); [intros; apply H; now right|intros; apply G; now right|].
    destruct (H e (or_introl eq_refl)) as (P & T). destruct (G e (or_introl eq_refl)) as ((j & D) & NT).
    exists ((fst e, (snd e, j)) :: ws). split.
    + intros x [<-|Hx]; auto. split; cbn [fst snd]; auto.
    + cbn [map fst snd]. rewrite B. now destruct e.
Qed.
Lemma split_vars (vs : list (text * pval)) : (forall e, In e vs -> printable (fst e) /\ typed tr (snd e)) ->
  (forall e, In e vs -> jsonable tr (snd e)) \/
  exists good nm v tail t, vs = good ++ (nm, v) :: tail /\ (forall e, In e good -> jsonable tr (snd e)) /\ streamText true tr (embed v) = Some t /\ unread t.
Proof using names.
  induction vs as [|[nm v] vs IH]; intros H; [left; intros e []|].
  destruct (good_or_spoils v (proj2 (H (nm, v) (or_introl eq_refl)))) as [G|(t & E & U)].
  - destruct IH as [A|(good & nm' & v' & tail & t & -> & A & E & U)]; [intros; apply H; now right| |].
    + left. intros e [<-|He]; auto.
    + right. exists ((nm, v) :: good), nm', v', tail, t. splits; auto. intros e [<-|He]; auto.
  - right. exists [], nm, v, vs, t. splits; auto. intros e [].
Qed.
Lemma split_calls (cs : list (mcall pval)) : (forall c, In c cs -> plainCall tr c) ->
  (forall c e, In c cs -> In e (varsOfM c) -> jsonable tr (snd e)) \/
  exists before bad after, cs = before ++ bad :: after /\ (forall c e, In c before -> In e (varsOfM c) -> jsonable tr (snd e)) /\
    exists good nm v tail t, varsOfM bad = good ++ (nm, v) :: tail /\ (forall e, In e good -> jsonable tr (snd e)) /\ streamText true tr (embed v) = Some t /\ unread t.
Proof using names.
  induction cs as [|c cs IH]; intros H; [left; intros c e []|].
  destruct (split_vars (varsOfM c) (proj2 (H c (or_introl eq_refl)))) as [G|B].
  - destruct IH as [A|(before & bad & after & -> & A & B)]; [intros; apply H; now right| |].
    + left. intros c' e [<-|Hc] He; eauto.
    + right. exists (c :: before), bad, after. splits; auto. intros c' e [<-|Hc] He; eauto.
  - right. exists [], c, cs. splits; auto. intros c' e [].
Qed.
Lemma calls_with_json (cs : list (mcall pval)) : (forall c, In c cs -> plainCall tr c) -> (forall c e, In c cs -> In e (varsOfM c) -> jsonable tr (snd e)) ->
  exists ds, (forall c, In c ds -> mcallOk tr c) /\ map (mapM fst) ds = cs.
Proof.
  induction cs as [|c cs IH]; intros H G.
  - exists []. split; [intros c []|reflexivity].
  - destruct IH as (ds & A & B); [intros; apply H; now right|intros c' e Hc; apply (G c' e); now right|].
    destruct (H c (or_introl eq_refl)) as (F & P).
    destruct (with_json (varsOfM c) P) as (ws & W1 & W2); [intros e; apply (G c e); now left|].
    destruct c as (((line & file) & v) & rest). unfold varsOfM in *. cbn [fst snd] in *.
    destruct ws as [|w ws]; [discriminate|]. cbn [map] in W2. injection W2 as W2 W3.
    exists ((line, file, w, ws) :: ds). split.
    + intros x [<-|Hx]; auto. split; auto.
    + cbn [map mapM]. f_equal; auto. f_equal; auto. f_equal; auto.
Qed.
End L.

(** A program logs variables of any types (texts and names of members in plain characters): its log is JSON if and only if every variable has a JSON
    value and none is a tuple. One infinite number or NaN - an element of a vector, a coordinate of a vertex, a member of an object - makes the whole file
    unreadable, whatever is logged before and after it. *)
Theorem C97_log_iff : forall tr name fs (calls : list (mcall pval)) r l s,
  (forall c ms nm i, tr c = Some ms -> In (nm, i) ms -> jsonPlain nm) ->
  calls <> [] -> (forall c, In c calls -> plainCall tr c) -> (Z.of_nat (length calls) <= 2147483647)%Z ->
  jsonCalls tr (map (mapM embed) calls) (jNew name fs) = Some r -> (l0 <- r ;; jDestroy l0) = Ok l -> jFiles l name = Some s ->
  ((exists j, jtext j s) <-> forall c e, In c calls -> In e (varsOfM c) -> jsonable tr (snd e)).
Proof.
  intros tr name fs calls r l s N NE P L E1 E2 E3.
  assert (MM : forall ds : list (mcall (pval * jv)), map (mapM (fun x => embed (fst x))) ds = map (mapM embed) (map (mapM fst) ds)).
  { intros ds. rewrite map_map. apply map_ext. intros (((line & file) & v) & rest). unfold mapM. cbn [fst snd]. rewrite map_map. reflexivity. }
  split.
  - intros (j & J). destruct (split_calls tr N calls P) as [A|(before & bad & after & -> & A & good & nm & v & tail & t & Q & G & ST & U)]; auto. exfalso.
    destruct (calls_with_json tr before) as (ds & D1 & D2); auto; [intros c Hc; apply P, in_or_app; now left|].
    destruct (P bad) as (F & Pv); [apply in_or_app; right; now left|].
    destruct (with_json tr good) as (ws & W1 & W2); auto; [intros e He; apply Pv; rewrite Q; apply in_or_app; now left|].
    destruct bad as (((line & file) & v0) & rest0).
    refine (spoiled_program tr name fs ds line file (fst v0, embed (snd v0)) (map (fun e => (fst e, embed (snd e))) rest0) ws nm (embed v) t
      (map (fun e => (fst e, embed (snd e))) tail) (map (mapM embed) after) r l s j N D1 _ F _ W1 _ ST U _ E2 E3 J).
    + rewrite <- D2, app_length, map_length in L. lia.
    + apply (Pv (nm, v)). rewrite Q. apply in_or_app. right. now left.
    + unfold varsOfM in Q. cbn [fst snd] in Q. apply (f_equal (map (fun e : text * pval => (fst e, embed (snd e))))) in Q. cbn [map] in Q. rewrite Q, map_app. cbn [map fst snd].
      rewrite <- W2, map_map. reflexivity.
    + rewrite MM, D2. rewrite map_app in E1. exact E1.
  - intros G. destruct (calls_with_json tr calls P G) as (ds & D1 & D2).
    destruct (C96_json_log tr name fs ds) as (r' & l' & s' & H1 & H2 & H3 & H4 & _); auto.
    + intros ->. cbn in D2. congruence.
    + rewrite <- D2, map_length in L. exact L.
    + rewrite MM, D2, E1 in H1. injection H1 as <-. rewrite E2 in H2. injection H2 as <-. rewrite E3 in H3. injection H3 as <-. eauto.
Qed.

(** * Instances *)
(** 0.1, the float nearest to 1/3, 1/0 and so on. *)
Example C97_texts :
  realText (Fin (1 # 10)) = str "0.1" /\ realText (Fin (11184811 # 33554432)) = str "0.333333" /\ realText (Fin (-123456789 # 1)) = str "-1.23457e+08" /\
  realText (Fin (1 # 100000)) = str "1e-05" /\ realText (Fin (1000000 # 3)) = str "333333" /\ realText NegZero = str "-0" /\
  realText (Infinite true) = str "-inf" /\ realText (NotANumber false) = str "nan".
Proof. vm_compute. repeat split; reflexivity. Qed.
(** Numbers that differ in the seventh digit have the same text. *)
Example C97_alike : sixAlike (Fin (1234567 # 1000000)) (Fin (12345671 # 10000000)) /\ ~ sixAlike (Fin (1 # 3)) (Fin (33333 # 100000)).
Proof. vm_compute. split; [reflexivity|discriminate]. Qed.
(** A mesh vertex (a class indexed by operator[] with size()) is logged as an array. *)
Definition vertexLog (x y z : fnum) : mcall pval := (7%Z, str "main.cpp", (str "v", PIdx [PReal x; PReal y; PReal z]), [(str "n", PNum K_int 2)]).
Lemma vertex_plain x y z : plainCall (fun _ => None) (vertexLog x y z).
Proof.
  split.
  - exact (proj1 exCallOk).
  - intros e [<-|[<-|[]]]; cbn [fst snd].
    + split; [intros c [<-|[]]; vm_compute; lia|]. exists (TIdx TReal). constructor. intros v [<-|[<-|[<-|[]]]]; constructor.
    + split; [intros c [<-|[]]; vm_compute; lia|]. exists (TNum K_int). constructor. exact I.
Qed.
Example C97_vertex : jsonOf (fun _ => None) (PIdx [PReal (Fin (1 # 10)); PReal NegZero; PReal (Fin (-1 # 3))]) (JArr [JRat (1 # 10); JNum 0; JRat (-333333 # 1000000)]) /\
  export stream (fun _ => None) (PIdx [PReal (Fin (1 # 10)); PReal NegZero; PReal (Fin (-1 # 3))]) = Some (str "[ 0.1, -0, -0.333333 ]").
Proof.
  split; [|vm_compute; reflexivity]. constructor.
  constructor; [exact (D_real (fun _ => None) (1 # 10))|]. constructor; [constructor|]. constructor; [exact (D_real (fun _ => None) (-1 # 3))|constructor].
Qed.
Example C97_instance : exists r l s,
  jsonCalls (fun _ => None) (map (mapM embed) [vertexLog (Fin 1) (Fin (1 # 2)) NegZero; vertexLog (Fin 0) (Fin 0) (Fin (-3 # 1))]) (jNew (str "log.json") (fun _ => None)) = Some r /\
  (l0 <- r ;; jDestroy l0) = Ok l /\ jFiles l (str "log.json") = Some s /\ exists j, jtext j s.
Proof.
  do 3 eexists. splits; [vm_compute; reflexivity|vm_compute; reflexivity|vm_compute; reflexivity|].
  eapply (C97_log_iff (fun _ => None) (str "log.json") (fun _ => None) [vertexLog (Fin 1) (Fin (1 # 2)) NegZero; vertexLog (Fin 0) (Fin 0) (Fin (-3 # 1))]);
    [discriminate|discriminate|intros c [<-|[<-|[]]]; apply vertex_plain|vm_compute; discriminate|vm_compute; reflexivity|vm_compute; reflexivity|vm_compute; reflexivity|].
  intros c e [<-|[<-|[]]] [<-|[<-|[]]]; (split; [|exact I]); cbn [snd]; eexists; repeat constructor.
Qed.
(** One NaN among the coordinates: the program runs, its log is not JSON. *)
Example C97_nan_instance : exists r l s,
  jsonCalls (fun _ => None) (map (mapM embed) [vertexLog (Fin 1) (Fin (1 # 2)) NegZero; vertexLog (Fin 0) (NotANumber true) (Fin 1); vertexLog (Fin 0) (Fin 0) (Fin 1)])
    (jNew (str "log.json") (fun _ => None)) = Some r /\
  (l0 <- r ;; jDestroy l0) = Ok l /\ jFiles l (str "log.json") = Some s /\ ~ exists j, jtext j s.
Proof.
  do 3 eexists. splits; [vm_compute; reflexivity|vm_compute; reflexivity|vm_compute; reflexivity|].
  intros J0. assert (J : forall c e, In c [vertexLog (Fin 1) (Fin (1 # 2)) NegZero; vertexLog (Fin 0) (NotANumber true) (Fin 1); vertexLog (Fin 0) (Fin 0) (Fin 1)] ->
    In e (varsOfM c) -> jsonable (fun _ => None) (snd e)).
  { revert J0. eapply (C97_log_iff (fun _ => None) (str "log.json") (fun _ => None));
      [discriminate|discriminate|intros c [<-|[<-|[<-|[]]]]; apply vertex_plain|vm_compute; discriminate|vm_compute; reflexivity|vm_compute; reflexivity|vm_compute; reflexivity]. }
  destruct (J (vertexLog (Fin 0) (NotANumber true) (Fin 1)) (str "v", PIdx [PReal (Fin 0); PReal (NotANumber true); PReal (Fin 1)])) as ((j & D) & _); [right; left; reflexivity|left; reflexivity|].
  cbn [snd] in D. inversion D as [| | | | | |l0 js F| | |]; subst. inversion F as [|? ? ? ? _ F1]; subst. inversion F1 as [|? ? ? ? D1 _]; subst. inversion D1.
Qed.
Print Assumptions C97_six_digits.
Print Assumptions C97_number.
Print Assumptions C97_same_text.
Print Assumptions C97_read_back.
Print Assumptions C97_unambiguous.
Print Assumptions C97_json_iff.
Print Assumptions C97_log_iff.

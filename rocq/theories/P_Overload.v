From Coq Require Import String Ascii ZArith Lia.
From Verif Require Import Base P_Base M_Traits M_Print M_Log S_Json S_Print S_Log P_Print P_Json P_JsonParse P_Log M_Overload S_Overload.
Local Open Scope list_scope.

Section Ind.
Variable P : xv -> Prop.
Hypothesis Hl : forall v, match v with XSeq _ _ | XIdx _ | XPair _ _ | XTup _ | XObj _ _ => False | _ => True end -> P v.
Hypothesis Hs : forall i l, (forall v, In v l -> P v) -> P (XSeq i l).
Hypothesis Hi : forall l, (forall v, In v l -> P v) -> P (XIdx l).
Hypothesis Hp : forall a b, P a -> P b -> P (XPair a b).
Hypothesis Ht : forall l, (forall v, In v l -> P v) -> P (XTup l).
Hypothesis Ho : forall c l, (forall v, In v l -> P v) -> P (XObj c l).
Fixpoint xv_ind' (v : xv) : P v.
Proof.
  assert (L : forall l w, In w l -> P w).
  { fix F 1. intros [|a l] w H; [contradiction|]. destruct H as [<-|H]; [apply xv_ind'|exact (F l w H)]. }
  destruct v; try (apply Hl; exact I).
  - apply Hs, L.
  - apply Hi, L.
  - apply Hp; apply xv_ind'.
  - apply Ht, L.
  - apply Ho, L.
Qed.
End Ind.

(** ** Unfolding *)
Lemma exX_seq io tr i l : exportX io tr (XSeq i l) = option_map (fun ts => str "[ " ++ iterLoop ts ++ str " ]") (sequence (map (exportX io tr) l)).
Proof. cbn. destruct (sequence _); reflexivity. Qed.
Lemma exX_idx io tr l : exportX io tr (XIdx l) = option_map (fun ts => str "[ " ++ idxLoop (length ts) 0 ts ++ str " ]") (sequence (map (exportX io tr) l)).
Proof. cbn. destruct (sequence _); reflexivity. Qed.
Lemma exX_pair io tr a b : exportX io tr (XPair a b) =
  obind (exportX io tr a) (fun ta => obind (exportX io tr b) (fun tb => Some (str "{ " ++ ta ++ str ": " ++ tb ++ str "}"))).
Proof. reflexivity. Qed.
Lemma exX_tup io tr l : exportX io tr (XTup l) = option_map (fun ts => str "[ " ++ idxLoop (length ts) 0 ts ++ str "]") (sequence (map (exportX io tr) l)).
Proof. cbn. destruct (sequence _); reflexivity. Qed.
Lemma exX_obj io (tr : nat -> option (list (text * nat))) c l : exportX io tr (XObj c l) =
  obind (tr c) (fun ms =>
    obind (sequence (map (fun m => obind (nth_error (map (exportX io tr) l) (snd m)) (fun o => option_map (pair (fst m)) o)) ms))
      (fun ts => option_map (fun t => str "{ " ++ t ++ str " }") (classLoop ts))).
Proof. cbn. unfold printerOf, capsX. destruct (tr c) as [ms|]; reflexivity. Qed.

Lemma map_ext_In {A B} (f g : A -> B) l : (forall v, In v l -> f v = g v) -> map f l = map g l.
Proof. apply map_ext_in. Qed.

(** ** The values of C53 *)
Lemma exX_embed (io : bool) tr v : exportX io tr (embed v) = export (if io then stdio else stream) tr v.
Proof.
  induction v using pval_ind'; cbn [embed].
  - cbn. destruct io; reflexivity.
  - destruct io; reflexivity.
  - destruct b, io; reflexivity.
  - destruct io; reflexivity.
  - rewrite exX_seq, map_map. rewrite (map_ext_In _ (export (if io then stdio else stream) tr) l) by auto.
    cbn [export]. rewrite sel_seq. destruct (sequence _); reflexivity.
  - rewrite exX_idx, map_map. rewrite (map_ext_In _ (export (if io then stdio else stream) tr) l) by auto.
    cbn [export]. rewrite sel_idx. destruct (sequence _); reflexivity.
  - rewrite exX_pair, IHv1, IHv2. cbn [export]. rewrite sel_pair. reflexivity.
  - rewrite exX_tup, map_map. rewrite (map_ext_In _ (export (if io then stdio else stream) tr) l) by auto.
    cbn [export]. rewrite sel_tup. destruct (sequence _); reflexivity.
  - rewrite exX_obj, map_map. rewrite (map_ext_In _ (export (if io then stdio else stream) tr) l) by auto.
    cbn [export]. unfold classSelector, printers, accepts. destruct (tr c) as [ms|]; reflexivity.
Qed.

(** ** Every value is printed by the stream version *)
Lemma seq_some {A B} (f : A -> option B) l : (forall v, In v l -> exists s, f v = Some s) -> exists ts, sequence (map f l) = Some ts.
Proof.
  induction l as [|a l IH]; intros H; [eexists; reflexivity|].
  destruct (H a (or_introl eq_refl)) as (s & Es). destruct IH as (ts & Et); [intros v Hv; apply H; now right|].
  cbn. rewrite Es, Et. eexists; reflexivity.
Qed.
Lemma seq_length {A} (l : list (option A)) ts : sequence l = Some ts -> length ts = length l.
Proof. intros H. apply sequence_spec in H. subst l. now rewrite map_length. Qed.
Lemma stream_complete tr v : complete tr v -> exists s, exportX false tr v = Some s.
Proof.
  induction 1 as [v L|i l _ IH|l _ IH|a b _ IHa _ IHb|l _ IH|c l ms E N B _ IH].
  - destruct v; try contradiction; try (eexists; reflexivity).
    + destruct addr; eexists; reflexivity.
    + cbn. unfold printerOf, capsX. destruct st as [s|]; [eexists; reflexivity|]. destruct shown as [s|]; eexists; reflexivity.
  - rewrite exX_seq. destruct (seq_some _ l IH) as (ts & ->). eexists; reflexivity.
  - rewrite exX_idx. destruct (seq_some _ l IH) as (ts & ->). eexists; reflexivity.
  - rewrite exX_pair. destruct IHa as (s & ->), IHb as (s' & ->). eexists; reflexivity.
  - rewrite exX_tup. destruct (seq_some _ l IH) as (ts & ->). eexists; reflexivity.
  - rewrite exX_obj, E. cbn [obind].
    destruct (seq_some (fun m : text * nat => obind (nth_error (map (exportX false tr) l) (snd m)) (fun o => option_map (pair (fst m)) o)) ms) as (ts & Q).
    + intros [nm i] Hm. specialize (B nm i Hm). cbn [fst snd].
      destruct (nth_error l i) as [v|] eqn:Ev; [|apply nth_error_None in Ev; lia].
      rewrite (map_nth_error _ _ _ Ev). destruct (IH v) as (s & Es); [eapply nth_error_In; eauto|].
      cbn. rewrite Es. eexists; reflexivity.
    + rewrite Q. cbn [obind]. destruct (class_some ts) as (t & ->); [|eexists; reflexivity].
      intros ->. apply seq_length in Q. destruct ms; [congruence|discriminate].
Qed.

(** ** The two versions *)
Lemma upto0_id s : ~ In "000"%char s -> upto0 s = s.
Proof.
  induction s as [|c s IH]; intros H; auto. cbn [upto0]. destruct (Ascii.eqb_spec c "000"%char) as [->|].
  - exfalso. apply H. now left.
  - rewrite IH; auto. intros Q. apply H. now right.
Qed.
Lemma regular_same tr v : (forall w, leafOf w v -> regular w) -> exportX true tr v = exportX false tr v.
Proof.
  induction v using xv_ind'; intros R.
  - specialize (R v (L_self v)). destruct v; try contradiction; cbn in R; try reflexivity.
    + destruct R as (A & B & C). destruct k; try reflexivity; congruence.
    + cbn. now rewrite upto0_id.
    + cbn. now rewrite upto0_id.
    + destruct R as (R1 & ->). cbn. unfold printerOf, capsX. destruct st; [reflexivity|congruence].
  - rewrite !exX_seq. f_equal. f_equal. apply map_ext_In. intros v Hv. apply H; auto. intros w Hw. apply R. eapply L_seq; eauto.
  - rewrite !exX_idx. f_equal. f_equal. apply map_ext_In. intros v Hv. apply H; auto. intros w Hw. apply R. eapply L_idx; eauto.
  - rewrite !exX_pair, IHv1, IHv2; auto.
    + intros w Hw. apply R. now apply L_snd.
    + intros w Hw. apply R. now apply L_fst.
  - rewrite !exX_tup. f_equal. f_equal. apply map_ext_In. intros v Hv. apply H; auto. intros w Hw. apply R. eapply L_tup; eauto.
  - rewrite !exX_obj. rewrite (map_ext_In (exportX true tr) (exportX false tr) l); auto.
    intros v Hv. apply H; auto. intros w Hw. apply R. eapply L_obj; eauto.
Qed.

(** ** Memory dumps *)
Lemma hexDigit_inj u a b : a < 16 -> b < 16 -> hexDigit u a = hexDigit u b -> a = b.
Proof.
  intros Ha Hb. destruct u;
  do 16 (destruct a as [|a]; [do 16 (destruct b as [|b]; [intros E; try reflexivity; vm_compute in E; discriminate E|]); lia|]); lia.
Qed.
Lemma hexByte_inj u a b : hexByte u a = hexByte u b -> a = b.
Proof.
  unfold hexByte. intros E.
  assert (E1 : hexDigit u (nat_of_ascii a / 16) = hexDigit u (nat_of_ascii b / 16)) by exact (f_equal (fun l => hd "000"%char l) E).
  assert (E2 : hexDigit u (nat_of_ascii a mod 16) = hexDigit u (nat_of_ascii b mod 16)) by exact (f_equal (fun l => hd "000"%char (tl l)) E).
  clear E.
  pose proof (nat_ascii_bounded a) as Ba. pose proof (nat_ascii_bounded b) as Bb.
  apply hexDigit_inj in E1; [|apply Nat.div_lt_upper_bound; lia|apply Nat.div_lt_upper_bound; lia].
  apply hexDigit_inj in E2; [|apply Nat.mod_upper_bound; lia|apply Nat.mod_upper_bound; lia].
  rewrite <- (ascii_nat_embedding a), <- (ascii_nat_embedding b). f_equal.
  rewrite (Nat.div_mod (nat_of_ascii a) 16), (Nat.div_mod (nat_of_ascii b) 16) by lia. congruence.
Qed.
Lemma hexBytes_inj u : forall a b, hexBytes u a = hexBytes u b -> a = b.
Proof.
  assert (C : forall c r, exists x y, hexBytes u (c :: r) = x :: y :: (match r with [] => [] | _ => str " " end) ++ hexBytes u r /\ hexByte u c = [x; y])
    by (intros; do 2 eexists; split; reflexivity).
  induction a as [|c a IH]; intros [|d b] E; auto.
  - destruct (C d b) as (x & y & Q & _). rewrite Q in E. discriminate.
  - destruct (C c a) as (x & y & Q & _). rewrite Q in E. discriminate.
  - destruct (C c a) as (x & y & Q & Q1), (C d b) as (x' & y' & Q' & Q1'). rewrite Q, Q' in E.
    injection E as -> -> E.
    assert (c = d) by (apply (hexByte_inj u); congruence). subst d. f_equal.
    destruct a as [|a1 a], b as [|b1 b]; auto.
    + cbn in E. discriminate.
    + cbn in E. discriminate.
    + apply IH. exact (f_equal (@tl _) E).
Qed.
Lemma dump_inj io n a b : dump io n a = dump io n b -> a = b.
Proof.
  unfold dump. destruct io; [apply hexBytes_inj|].
  intros E. apply app_inv_head in E. apply app_inv_head in E. apply app_inv_tail in E. revert E. apply hexBytes_inj.
Qed.

(** ** The JSON log with a tuple *)
Lemma texts_length tr : forall vs ts, jsonTexts tr vs = Some ts -> length ts = length vs.
Proof.
  induction vs as [|[n v] vs IH]; intros ts; cbn [jsonTexts]; [intros E; injection E as <-; reflexivity|].
  destruct (streamText true tr v); cbn [obind]; [|discriminate].
  destruct (jsonTexts tr vs) as [us|] eqn:Q; cbn [option_map]; [|discriminate].
  intros E; injection E as <-. cbn. now rewrite (IH us).
Qed.

(** Calls only append to the file. *)
Definition grows (n c : text) (l : jlog) : Prop := jHandle l = HOpen n /\ exists more, jFiles l n = Some (c ++ more).
Lemma grows_put n c s l l' : grows n c l -> jPut s l = Ok l' -> grows n c l'.
Proof.
  intros (H & more & F) E. unfold jPut in E. rewrite H, F in E. injection E as <-. split; [reflexivity|].
  exists (more ++ s). cbn. rewrite fset_same. now rewrite <- app_assoc.
Qed.
Lemma grows_sep n c l l' : grows n c l -> jSep l = Ok l' -> grows n c l'.
Proof.
  intros G E. unfold jSep in E. destruct (jFirst l).
  - injection E as <-. exact G.
  - eapply grows_put; eauto.
Qed.
Lemma grows_ensure n c l : grows n c l -> jEnsure l = Ok l.
Proof. intros (H & _). unfold jEnsure. now rewrite H. Qed.
Lemma bind_inv {A B} (o : outcome A) (f : A -> outcome B) b : bind o f = Ok b -> exists a, o = Ok a /\ f a = Ok b.
Proof. destruct o; cbn; intros E; try discriminate. eauto. Qed.
Lemma grows_vars n c line f : forall rest v l l', grows n c l -> jVars line f v rest l = Ok l' -> grows n c l'.
Proof.
  induction rest as [|w rest IH]; intros v l l' G E; cbn [jVars] in E;
    apply bind_inv in E as (l1 & E1 & E2); unfold jVar in E1; rewrite (grows_ensure n c) in E1 by auto; cbn [bind] in E1;
    apply bind_inv in E1 as (l2 & E1 & E3); pose proof (grows_put _ _ _ _ _ (grows_sep _ _ _ _ G E1) E3) as G1.
  - unfold jIncr in E2. destruct (_ <? _)%Z; [|discriminate]. injection E2 as <-. exact G1.
  - eapply IH; eauto.
Qed.
Lemma grows_plain n c : forall rest v l l', grows n c l -> jPlain v rest l = Ok l' -> grows n c l'.
Proof.
  induction rest as [|w rest IH]; intros v l l' G E; cbn [jPlain] in E;
    rewrite (grows_ensure n c) in E by auto; cbn [bind] in E;
    apply bind_inv in E as (l1 & E1 & E2); unfold jPlain1 in E1; rewrite (grows_ensure n c) in E1 by auto; cbn [bind] in E1;
    apply bind_inv in E1 as (l2 & E1 & E3); pose proof (grows_put _ _ _ _ _ (grows_sep _ _ _ _ G E1) E3) as G1.
  - injection E2 as <-. exact G1.
  - eapply IH; eauto.
Qed.
Lemma grows_calls n c : forall cs l l', grows n c l -> jCalls cs l = Ok l' -> grows n c l'.
Proof.
  unfold jCalls. induction cs as [|k cs IH]; intros l l' G E; cbn [foldM] in E; [injection E as <-; exact G|].
  apply bind_inv in E as (l1 & E1 & E2). eapply IH; [|exact E2].
  destruct k as [line file v rest|v rest]; cbn [jCall] in E1.
  - apply bind_inv in E1 as (f & _ & E1). eapply grows_vars; eauto.
  - eapply grows_plain; eauto.
Qed.
Lemma grows_destroy n c l l' : grows n c l -> jDestroy l = Ok l' -> exists more, jFiles l' n = Some (c ++ more).
Proof.
  intros (H & more & F) E. unfold jDestroy in E. rewrite H in E. apply bind_inv in E as (l1 & E1 & E2).
  unfold jPut in E1. rewrite H, F in E1. injection E1 as <-. injection E2 as <-. cbn. rewrite fset_same.
  exists (more ++ jFooter). now rewrite <- app_assoc.
Qed.

(** A record without a value cannot be read. *)
Lemma pms_step k key b v s rest : jchars key b -> (forall r, nd r -> pv k (s ++ r) = Some (v, skipws r)) ->
  pms (S k) (NL ++ ([""""%char] ++ b ++ [""""%char]) ++ str " :" ++ s ++ [","%char] ++ rest) =
  option_map (fun x => ((key, v) :: fst x, snd x)) (pms k rest).
Proof.
  intros J P. cbn [pms]. rewrite skipws_app by exact ws_NL. cbn [app]. rewrite skipws_self by reflexivity.
  change (negb (Ascii.eqb """" """")) with false. cbv iota. rewrite <- app_assoc. rewrite (pstr_spec key b _ J).
  change (str " :" ++ s ++ ","%char :: rest) with (" "%char :: ":"%char :: s ++ ","%char :: rest).
  change (skipws (" "%char :: ":"%char :: s ++ ","%char :: rest)) with (":"%char :: s ++ ","%char :: rest).
  change (negb (Ascii.eqb ":" ":")) with false. cbv iota. rewrite P by reflexivity. rewrite skipws_self by reflexivity.
  change (Ascii.eqb "," ",") with true. reflexivity.
Qed.
Lemma pv_brace k r : pv k ("}"%char :: r) = None.
Proof. destruct k; reflexivity. Qed.
(** The text [t] of a value makes a record unreadable. *)
Definition unread (t : text) : Prop := forall rest k, 2 * length (t ++ ["010"; "009"; "}"]%char ++ rest) + 5 <= k -> pv k (t ++ ["010"; "009"; "}"]%char ++ rest) = None.
Lemma unread_nil : unread [].
Proof.
  intros rest k _. cbn [app]. change ("010"%char :: "009"%char :: "}"%char :: rest) with (["010"; "009"]%char ++ "}"%char :: rest).
  rewrite pv_ws; [apply pv_brace|]. intros c [<-|[<-|[]]]; simpl; auto.
Qed.
Lemma pms_none t k key b rest : unread t -> jchars key b -> 2 * length (t ++ ["010"; "009"; "}"]%char ++ rest) + 5 <= k ->
  pms (S k) (NL ++ ([""""%char] ++ b ++ [""""%char]) ++ str " : " ++ t ++ ["010"; "009"; "}"]%char ++ rest) = None.
Proof.
  intros U J K. cbn [pms]. rewrite skipws_app by exact ws_NL. cbn [app].
  rewrite skipws_self by reflexivity. change (negb (Ascii.eqb """" """")) with false. cbv iota. rewrite <- app_assoc. rewrite (pstr_spec key b _ J).
  change (skipws (str " : " ++ t ++ "010"%char :: "009"%char :: "}"%char :: rest)) with (":"%char :: " "%char :: t ++ ["010"; "009"; "}"]%char ++ rest).
  change (negb (Ascii.eqb ":" ":")) with false. cbv iota.
  replace (pv k (" "%char :: t ++ ["010"; "009"; "}"]%char ++ rest)) with (@None (jv * text)); [reflexivity|].
  symmetry. change (" "%char :: t ++ ["010"; "009"; "}"]%char ++ rest) with (str " " ++ t ++ ["010"; "009"; "}"]%char ++ rest).
  rewrite pv_ws by exact ws_space. now apply U.
Qed.

Definition badRecord (t : text) (g : Z) (file : text) (line : Z) (name : text) : text :=
  ["009"%char] ++ str "{" ++
        NL ++ str """gInd"" : " ++ digits g ++ str "," ++
        NL ++ str """file"" : """ ++ file ++ str """," ++
        NL ++ str """line"" : " ++ digits line ++ str "," ++
        NL ++ str """expr"" : " ++ quoted name ++ str "," ++
        NL ++ str """data"" : " ++ t ++ ["010"; "009"]%char ++ str "}".
Lemma pv_text v s k r : jtext v s -> nd r -> 2 * length s + 1 <= k -> pv k (s ++ r) = Some (v, skipws r).
Proof. intros J N K. exact (proj1 (proj1 parse_all v s J) r N k K). Qed.
Lemma bad_unread t g file body line name rest k : unread t -> jchars file body -> jstring name (quoted name) ->
  2 * length (badRecord t g body line name ++ rest) + 5 <= k ->
  pv k (badRecord t g body line name ++ rest) = None.
Proof.
  intros U JF JN K.
  assert (E : badRecord t g body line name ++ rest = ["009"%char] ++ "{"%char ::
     (NL ++ ([""""%char] ++ lit "gInd" ++ [""""%char]) ++ str " :" ++ (str " " ++ digits g) ++ [","%char] ++
     (NL ++ ([""""%char] ++ lit "file" ++ [""""%char]) ++ str " :" ++ (str " " ++ ([""""%char] ++ body ++ [""""%char])) ++ [","%char] ++
     (NL ++ ([""""%char] ++ lit "line" ++ [""""%char]) ++ str " :" ++ (str " " ++ digits line) ++ [","%char] ++
     (NL ++ ([""""%char] ++ lit "expr" ++ [""""%char]) ++ str " :" ++ (str " " ++ quoted name) ++ [","%char] ++
     (NL ++ ([""""%char] ++ lit "data" ++ [""""%char]) ++ str " : " ++ t ++ ["010"; "009"; "}"]%char ++ rest)))))).
  { unfold badRecord. rewrite <- !app_assoc. cbn [app]. reflexivity. }
  rewrite E in K |- *. rewrite pv_ws by (intros c [<-|[]]; simpl; auto).
  repeat (rewrite ?app_length in K; cbn [length] in K).
  do 6 (destruct k as [|k]; [lia|]). cbn [pv]. rewrite skipws_self by reflexivity.
  change (Ascii.eqb "{" """") with false. change (Ascii.eqb "{" "t") with false. change (Ascii.eqb "{" "f") with false.
  change (Ascii.eqb "{" "[") with false. change (Ascii.eqb "{" "{") with true. cbv iota.
  rewrite skipws_app by exact ws_NL. cbn [app]. rewrite skipws_self by reflexivity. change (Ascii.eqb """" "}") with false. cbv iota.
  match goal with |- option_map _ (pms _ ?x) = _ => replace (pms (S (S (S (S (S k))))) x) with (@None (list (text * jv) * text)); [reflexivity|] end.
  symmetry.
  assert (W : forall m s', pms m (NL ++ s') = pms m s').
  { intros m s'. destruct m; [reflexivity|]. cbn [pms]. now rewrite skipws_app by exact ws_NL. }
  assert (PL : forall s0, jsonPlain (lit s0) -> jchars (lit s0) (lit s0)) by (intros; now apply plain_jchars).
  match goal with |- pms _ ?x = None => rewrite <- (W _ x) end.
  assert (D : forall z r m, nd r -> 2 * length (digits z) + 3 <= m -> pv m ((str " " ++ digits z) ++ r) = Some (JNum z, skipws r)).
  { intros z r m N M. apply pv_text; auto.
    - apply jws_l; [exact ws_space|]. apply J_int.
    - rewrite app_length. change (length (str " ")) with 1. lia. }
  assert (Len1 : length (str " ") = 1) by reflexivity.
  etransitivity; [apply (pms_step _ (lit "gInd") (lit "gInd") (JNum g) (str " " ++ digits g)); [apply PL; plain|intros r N; apply D; auto; lia]|].
  etransitivity; [apply f_equal, (pms_step _ (lit "file") (lit "file") (JStr file) (str " " ++ ([""""%char] ++ body ++ [""""%char])));
     [apply PL; plain|intros r N; apply pv_text; auto; [apply jws_l; [exact ws_space|apply J_str; exists body; auto]|rewrite !app_length; cbn [length]; lia]]|].
  etransitivity; [apply f_equal, f_equal, (pms_step _ (lit "line") (lit "line") (JNum line) (str " " ++ digits line)); [apply PL; plain|intros r N; apply D; auto; lia]|].
  etransitivity; [apply f_equal, f_equal, f_equal, (pms_step _ (lit "expr") (lit "expr") (JStr name) (str " " ++ quoted name));
     [apply PL; plain|intros r N; apply pv_text; auto; [apply jws_l; [exact ws_space|now apply J_str]|rewrite !app_length; lia]]|].
  etransitivity; [apply f_equal, f_equal, f_equal, f_equal, (pms_none t _ (lit "data") (lit "data")); [exact U|apply PL; plain|]|reflexivity].
  repeat (rewrite app_length; cbn [length]). lia.
Qed.

Lemma pes_bad tail : (forall k, 2 * length tail + 5 <= k -> pv k tail = None) ->
  forall l body k, jelems l body -> 2 * length (body ++ [","%char] ++ tail) + 6 <= k -> pes k (body ++ [","%char] ++ tail) = None.
Proof.
  intros T. induction l as [|w l IH]; intros body k J K; inversion J; subst.
  - rewrite !app_length in K. cbn [length] in K. do 2 (destruct k as [|k]; [lia|]).
    change (pes (S (S k)) (body ++ [","%char] ++ tail)) with
      (match pv (S k) (body ++ [","%char] ++ tail) with
       | Some (v, c :: r) => if Ascii.eqb c ","%char then option_map (fun x => (v :: fst x, snd x)) (pes (S k) r)
                             else if Ascii.eqb c "]"%char then Some ([v], r) else None
       | _ => None end).
    rewrite (pv_text w body); auto; [|reflexivity|lia]. cbn [app]. rewrite skipws_self by reflexivity.
    change (Ascii.eqb "," ",") with true. cbv iota. cbn [pes]. rewrite T by lia. reflexivity.
  - match goal with H : jtext _ ?s0 |- _ => rename H into Js; rename s0 into s end. rewrite !app_length in K. cbn [length] in K. destruct k as [|k]; [lia|].
    rewrite <- app_assoc. cbn [pes]. rewrite (pv_text w s); auto; [|reflexivity|lia].
    change (([","%char] ++ r) ++ [","%char] ++ tail) with (","%char :: r ++ [","%char] ++ tail). rewrite skipws_self by reflexivity.
    change (Ascii.eqb "," ",") with true. cbv iota. rewrite IH; auto. rewrite !app_length. cbn [length]. lia.
Qed.
Lemma file_bad t rs body g file fbody line name rest v (sep : text) : unread t -> ws sep ->
  (rs = [] /\ body = [] \/ exists b, jelems rs b /\ body = b ++ [","%char]) ->
  jchars file fbody -> jstring name (quoted name) ->
  ~ jtext v (jHeader ++ body ++ sep ++ badRecord t g fbody line name ++ rest).
Proof.
  intros U W B JF JN J.
  set (tail := sep ++ badRecord t g fbody line name ++ rest) in *.
  assert (T : forall k, 2 * length tail + 5 <= k -> pv k tail = None).
  { intros k K. unfold tail in *. rewrite pv_ws by auto. eapply bad_unread; eauto. rewrite app_length in K. lia. }
  assert (P : forall k, 2 * length (body ++ tail) + 6 <= k -> pes k (body ++ tail) = None).
  { intros k K. destruct B as [(_ & ->)|(b & Jb & ->)].
    - cbn [app] in *. destruct k as [|k]; [lia|]. cbn [pes]. rewrite T by lia. reflexivity.
    - rewrite <- app_assoc in *. eapply pes_bad; eauto. }
  assert (H1 : exists c r, skipws (body ++ tail) = c :: r /\ c <> "]"%char).
  { destruct B as [(_ & ->)|(b & Jb & ->)].
    - cbn [app]. unfold tail. rewrite skipws_app by auto. unfold badRecord. cbn. do 2 eexists. split; [reflexivity|discriminate].
    - rewrite <- app_assoc. exact (proj2 (proj1 (proj2 parse_all) rs b Jb) _). }
  pose proof (proj1 (proj1 parse_all v _ J) [] I (2 * length (jHeader ++ body ++ tail) + 10) ltac:(lia)) as Q.
  rewrite app_nil_r in Q.
  assert (L : length (jHeader ++ body ++ tail) = 11 + length (body ++ tail)) by (rewrite app_length; reflexivity).
  remember (body ++ tail) as bt eqn:Ebt. clear B J T.
  rewrite L in Q. replace (2 * (11 + length bt) + 10) with (S (S (S (2 * length bt + 29)))) in Q by lia.
  revert Q. unfold jHeader.
  change ((str "{" ++ ["010"%char] ++ str """logs"":[" ++ ["010"%char]) ++ bt) with
    ("{"%char :: "010"%char :: """"%char :: "l"%char :: "o"%char :: "g"%char :: "s"%char :: """"%char :: ":"%char :: "["%char :: "010"%char :: bt).
  set (K := 2 * length bt + 29).
  assert (PK : pes K bt = None) by (apply P; unfold K; lia). clearbody K.
  destruct H1 as (d & r' & E & Nd). apply (proj2 (Ascii.eqb_neq _ _)) in Nd.
  rewrite <- pes_ws in PK. rewrite E in PK.
  cbn [pv pms]. cbn - [pes pv]. cbn [pv]. cbn - [pes]. rewrite E, Nd, PK. discriminate.
Qed.

(** The file so far starts with complete records and one without a value. *)
Definition spoiled (n : text) (l : jlog) : Prop :=
  exists t rs body g file fbody line name sep more, unread t /\ ws sep /\
    (rs = [] /\ body = [] \/ exists b, jelems rs b /\ body = b ++ [","%char]) /\
    jchars file fbody /\ jstring name (quoted name) /\ grows n (jHeader ++ body ++ sep ++ badRecord t g fbody line name ++ more) l.
Lemma spoil_var t n fs0 rs g l line file name l' : unread t -> ready n fs0 rs g l -> printable file -> ~ In """"%char file -> printable name ->
  jVar line (doubled file) (name, t) l = Ok l' -> spoiled n l'.
Proof.
  intros U R PF NQ PN E. destruct (ensure_ready _ _ _ _ _ R) as (l1 & E1 & (c & f & I1 & H)).
  unfold jVar in E. rewrite E1 in E. cbn [bind] in E.
  destruct H as [(-> & -> & ->)|(-> & body & -> & JE)].
  - unfold jSep in E. rewrite (proj1 (proj2 (proj2 (proj2 I1)))) in E. cbn [bind jGroup] in E.
    destruct I1 as (H1 & H2 & H3 & H4 & H5 & H6).
    unfold jPut in E. cbn [jHandle jFiles] in E. rewrite H2, H3 in E. injection E as <-.
    exists t, [], [], (jGroup l1), file, (doubled file), line, name, [], []. splits; auto using file_jchars, quoted_jstring.
    + intros x [].
    + split; [reflexivity|]. exists []. cbn [jFiles]. rewrite fset_same. rewrite !app_nil_r. reflexivity.
  - unfold jSep in E. rewrite (proj1 (proj2 (proj2 (proj2 I1)))) in E.
    destruct (jPut_inv _ _ _ _ _ _ (str "," ++ ["010"%char]) I1) as (l2 & E2 & I2). rewrite E2 in E. cbn [bind] in E.
    destruct I2 as (H1 & H2 & H3 & H4 & H5 & H6).
    unfold jPut in E. rewrite H2, H3 in E. apply (f_equal (fun o => match o with Ok x => x | _ => l2 end)) in E. cbv beta iota in E. subst l'.
    exists t, rs, (body ++ [","%char]), (jGroup l2), file, (doubled file), line, name, ["010"%char], []. splits; auto using file_jchars, quoted_jstring, ws_nl.
    + right. exists body. auto.
    + split; [reflexivity|]. exists []. cbn [jFiles]. rewrite fset_same. rewrite !app_nil_r. f_equal.
      unfold badRecord. rewrite <- !app_assoc. reflexivity.
Qed.
Lemma spoiled_vars n line f rest v l l' : spoiled n l -> jVars line f v rest l = Ok l' -> spoiled n l'.
Proof.
  intros (t & rs & body & g & file & fbody & ln & name & sep & more & U & W & B & JF & JN & G) E.
  exists t, rs, body, g, file, fbody, ln, name, sep, more. splits; auto. eapply grows_vars; eauto.
Qed.
Lemma spoil_vars t n fs0 g line file name : unread t -> printable file -> ~ In """"%char file -> printable name ->
  forall good rs l l' v rest tail, ready n fs0 rs g l -> (forall x, In x good -> varOk x) ->
  v :: rest = map txt good ++ (name, t) :: tail ->
  jVars line (doubled file) v rest l = Ok l' -> spoiled n l'.
Proof.
  intros U PF NQ PN. induction good as [|e good IH]; intros rs l l' v rest tail R V Q E.
  - cbn [map app] in Q. injection Q as -> ->.
    destruct tail as [|w tail]; cbn [jVars] in E; apply bind_inv in E as (l1 & E1 & E2);
      pose proof (spoil_var _ _ _ _ _ _ _ _ _ _ U R PF NQ PN E1) as Sp.
    + unfold jIncr in E2. destruct (_ <? _)%Z; [|discriminate]. injection E2 as <-. exact Sp.
    + eapply spoiled_vars; eauto.
  - cbn [map app] in Q. injection Q as -> Er.
    destruct (jVar_ready n fs0 rs g l line file e R PF NQ (V e (or_introl eq_refl))) as (l1 & E1 & O1).
    destruct rest as [|w rest]; [destruct good; discriminate Er|].
    cbn [jVars] in E. rewrite E1 in E. cbn [bind] in E.
    eapply (IH (rs ++ [frec g file line (val e)]) l1 l' w rest tail); eauto.
    + now right.
    + intros x Hx. apply V. now right.
Qed.
Lemma jCalls_app a b l : jCalls (a ++ b) l = bind (jCalls a l) (jCalls b).
Proof.
  unfold jCalls. revert l. induction a as [|c a IH]; intros l; [reflexivity|]. cbn [app foldM].
  destruct (jCall c l); cbn [bind]; auto.
Qed.
Lemma spoil_history t (n : text) fs (before : list (call (text * jv))) line file v rest good name tail after l s j : unread t ->
  (forall c, In c before -> callOk c) -> (Z.of_nat (length before) <= INT_MAX)%Z ->
  fileOk file -> printable name -> (forall x, In x good -> varOk x) ->
  v :: rest = map txt good ++ (name, t) :: tail ->
  (l0 <- jCalls (map (mapCall fst) before ++ CVars line file v rest :: after) (jNew n fs) ;; jDestroy l0) = Ok l ->
  jFiles l n = Some s -> ~ jtext j s.
Proof.
  intros U B L (PF & NQ & NB) PN V Q E F.
  destruct (jCalls_ready n fs before 0 [] (jNew n fs)) as (l1 & g & E1 & R1 & _); auto.
  { left. split; reflexivity. }
  apply bind_inv in E as (l0 & E0 & Ed). rewrite jCalls_app, E1 in E0. cbn [bind] in E0.
  change (CVars line file v rest :: after) with ([CVars line file v rest] ++ after) in E0. rewrite jCalls_app in E0.
  apply bind_inv in E0 as (l2 & E2 & E3). unfold jCalls in E2. cbn [foldM jCall] in E2.
  rewrite dbs_spec, (firstn_doubled _ NB) in E2. cbn [bind] in E2.
  apply bind_inv in E2 as (l2' & E2 & E2'). injection E2' as ->.
  destruct (spoil_vars t n fs g line file name U PF NQ PN good _ _ _ _ _ _ R1 V Q E2)
    as (t' & rs & body & g' & fl & fbody & ln & nm & sep & more & U' & W & Bd & JF & JN & G).
  pose proof (grows_calls _ _ _ _ _ G E3) as G3.
  destruct (grows_destroy _ _ _ _ G3 Ed) as (more' & F').
  rewrite F in F'. apply (f_equal (fun o => match o with Some x => x | None => [] end)) in F'. cbv beta iota in F'. subst s.
  replace ((jHeader ++ body ++ sep ++ badRecord t' g' fbody ln nm ++ more) ++ more') with
    (jHeader ++ body ++ sep ++ badRecord t' g' fbody ln nm ++ (more ++ more')) by (rewrite <- !app_assoc; reflexivity).
  eapply file_bad; eauto.
Qed.

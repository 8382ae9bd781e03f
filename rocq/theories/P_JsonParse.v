(** The JSON grammar of [S_Json] is unambiguous: a parser reads every text to its value. *)
From Coq Require Import String Ascii DecimalString DecimalFacts DecimalPos DecimalZ ZArith Lia.
From Verif Require Import Base P_Base S_Json P_JNum.
Local Open Scope list_scope.

Definition isws (c : ascii) : bool := existsb (Ascii.eqb c) [" "; "009"; "010"; "013"]%char.
Fixpoint skipws (s : text) : text := match s with c :: r => if isws c then skipws r else s | [] => [] end.
Fixpoint span (s : text) : text * text :=
  match s with c :: r => if isnum c then (c :: fst (span r), snd (span r)) else ([], s) | [] => ([], []) end.
Fixpoint pstr (s : text) : option (text * text) :=
  match s with
  | [] => None
  | c :: r =>
      if Ascii.eqb c """"%char then Some ([], r)
      else if Ascii.eqb c "\"%char
      then match r with d :: r' => option_map (fun x => (d :: fst x, snd x)) (pstr r') | [] => None end
      else option_map (fun x => (c :: fst x, snd x)) (pstr r)
  end.
Fixpoint pv (k : nat) (s : text) : option (jv * text) :=
  match k with
  | O => None
  | S k =>
      match skipws s with
      | [] => None
      | c :: r =>
          if Ascii.eqb c """"%char then option_map (fun x => (JStr (fst x), skipws (snd x))) (pstr r)
          else if Ascii.eqb c "t"%char then Some (JBool true, skipws (skipn 3 r))
          else if Ascii.eqb c "f"%char then Some (JBool false, skipws (skipn 4 r))
          else if Ascii.eqb c "["%char
          then match skipws r with
               | [] => None
               | d :: r' => if Ascii.eqb d "]"%char then Some (JArr [], skipws r')
                            else option_map (fun x => (JArr (fst x), skipws (snd x))) (pes k (d :: r'))
               end
          else if Ascii.eqb c "{"%char
          then match skipws r with
               | [] => None
               | d :: r' => if Ascii.eqb d "}"%char then Some (JObj [], skipws r')
                            else option_map (fun x => (JObj (fst x), skipws (snd x))) (pms k (d :: r'))
               end
          else option_map (fun q => (JRat q, skipws (snd (span (c :: r))))) (readnum (fst (span (c :: r))))
      end
  end
with pes (k : nat) (s : text) : option (list jv * text) :=     (* the rest after ']' *)
  match k with
  | O => None
  | S k =>
      match pv k s with
      | Some (v, c :: r) =>
          if Ascii.eqb c ","%char then option_map (fun x => (v :: fst x, snd x)) (pes k r)
          else if Ascii.eqb c "]"%char then Some ([v], r) else None
      | _ => None
      end
  end
with pms (k : nat) (s : text) : option (list (text * jv) * text) :=
  match k with
  | O => None
  | S k =>
      match skipws s with
      | q :: s1 =>
          if negb (Ascii.eqb q """"%char) then None else
          match pstr s1 with
          | Some (key, s2) =>
              match skipws s2 with
              | q' :: s3 =>
                  if negb (Ascii.eqb q' ":"%char) then None else
                  match pv k s3 with
                  | Some (v, c :: r) =>
                      if Ascii.eqb c ","%char then option_map (fun x => ((key, v) :: fst x, snd x)) (pms k r)
                      else if Ascii.eqb c "}"%char then Some ([(key, v)], r) else None
                  | _ => None
                  end
              | [] => None
              end
          | None => None
          end
      | [] => None
      end
  end.

(** What may follow a value. *)
Definition nd (r : text) : Prop := match r with c :: _ => isnum c = false | [] => True end.

Lemma ws_isws a c : ws a -> In c a -> isws c = true.
Proof. intros H I. apply existsb_exists. exists c. split; [exact (H c I)|apply Ascii.eqb_refl]. Qed.
Lemma skipws_app a s : ws a -> skipws (a ++ s) = skipws s.
Proof.
  induction a as [|c a IH]; intros H; [reflexivity|]. cbn [app skipws].
  rewrite (ws_isws (c :: a) c H (or_introl eq_refl)). apply IH. intros d Hd. apply H. now right.
Qed.
Lemma skipws_self c s : isws c = false -> skipws (c :: s) = c :: s.
Proof. intros H. cbn [skipws]. now rewrite H. Qed.
Lemma isws_num c : isws c = true -> isnum c = false.
Proof.
  intros H. apply existsb_exists in H as (d & Hd & E). apply Ascii.eqb_eq in E. subst d.
  cbn in Hd. destruct Hd as [<-|[<-|[<-|[<-|[]]]]]; reflexivity.
Qed.
Lemma nd_ws b rest : ws b -> nd rest -> nd (b ++ rest).
Proof.
  intros H N. destruct b as [|c b]; [exact N|]. cbn. apply isws_num. apply (ws_isws (c :: b)); auto. now left.
Qed.
Lemma pstr_spec s b rest : jchars s b -> pstr (b ++ [""""%char] ++ rest) = Some (s, rest).
Proof.
  induction 1 as [|c s b H1 H2 H3 _ IH|s b _ IH|s b _ IH]; cbn [app] in *.
  - reflexivity.
  - cbn [pstr]. rewrite (proj2 (Ascii.eqb_neq _ _) H2), (proj2 (Ascii.eqb_neq _ _) H3), IH. reflexivity.
  - cbn [pstr]. change (Ascii.eqb "\" """") with false. change (Ascii.eqb "\" "\") with true. cbv iota. now rewrite IH.
  - cbn [pstr]. change (Ascii.eqb "\" """") with false. change (Ascii.eqb "\" "\") with true. cbv iota. now rewrite IH.
Qed.

Lemma span_app a rest : Forall (fun c => isnum c = true) a -> nd rest -> span (a ++ rest) = (a, rest).
Proof.
  intros H N. induction H as [|c a Hc _ IH]; cbn [app].
  - destruct rest as [|c r]; [reflexivity|]. cbn in *. now rewrite N.
  - cbn [span]. rewrite Hc, IH. reflexivity.
Qed.
Lemma num_head c : isnum c = true -> isws c = false /\ Ascii.eqb c """" = false /\ Ascii.eqb c "t" = false /\ Ascii.eqb c "f" = false /\
  Ascii.eqb c "[" = false /\ Ascii.eqb c "{" = false /\ Ascii.eqb c "]" = false /\ Ascii.eqb c "}" = false.
Proof.
  intros H. apply existsb_exists in H as (d & Hd & E). apply Ascii.eqb_eq in E. subst d.
  cbn in Hd. repeat (destruct Hd as [<-|Hd]; [repeat split|]). destruct Hd.
Qed.

Scheme jtext_m := Minimality for jtext Sort Prop
  with jelems_m := Minimality for jelems Sort Prop
  with jmembers_m := Minimality for jmembers Sort Prop
  with jmember_m := Minimality for jmember Sort Prop.
Combined Scheme json_mut from jtext_m, jelems_m, jmembers_m, jmember_m.

(** The first visible character of a value, of a list of members. *)
Definition starts (bad : ascii) (s : text) : Prop := exists c r, skipws s = c :: r /\ c <> bad.

Definition PV (v : jv) (s : text) : Prop :=
  (forall rest, nd rest -> forall k, 2 * length s + 1 <= k -> pv k (s ++ rest) = Some (v, skipws rest)) /\
  (forall rest, exists c r, skipws (s ++ rest) = c :: r /\ c <> "]"%char) /\ s <> [].
Definition PE (l : list jv) (s : text) : Prop :=
  (forall rest k, 2 * length s + 2 <= k -> pes k (s ++ "]"%char :: rest) = Some (l, rest)) /\
  (forall rest, exists c r, skipws (s ++ rest) = c :: r /\ c <> "]"%char).
Definition PMs (l : list (text * jv)) (s : text) : Prop :=
  (forall rest k, 2 * length s + 2 <= k -> pms k (s ++ "}"%char :: rest) = Some (l, rest)) /\
  (forall rest, exists c r, skipws (s ++ rest) = c :: r /\ c <> "}"%char).
Definition PM (m : text * jv) (s : text) : Prop :=
  (forall rest k, 2 * length s + 2 <= S k -> nd rest -> exists s1 s2 s3, skipws (s ++ rest) = """"%char :: s1 /\ pstr s1 = Some (fst m, s2) /\
     skipws s2 = ":"%char :: s3 /\ pv k s3 = Some (snd m, skipws rest)) /\
  (forall rest, exists c r, skipws (s ++ rest) = c :: r /\ c <> "}"%char).

Lemma pv_ws k a s : ws a -> pv k (a ++ s) = pv k s.
Proof. intros H. destruct k; [reflexivity|]. cbn [pv]. now rewrite skipws_app. Qed.
Lemma pes_ws k s : pes k (skipws s) = pes k s.
Proof.
  assert (I : forall s, skipws (skipws s) = skipws s).
  { clear. induction s as [|c r IH]; [reflexivity|]. cbn [skipws]. destruct (isws c) eqn:E; [exact IH|]. cbn [skipws]. now rewrite E. }
  destruct k as [|[|k]]; try reflexivity. cbn [pes pv]. now rewrite I.
Qed.
Lemma pms_ws k s : pms k (skipws s) = pms k s.
Proof.
  assert (I : forall s, skipws (skipws s) = skipws s).
  { clear. induction s as [|c r IH]; [reflexivity|]. cbn [skipws]. destruct (isws c) eqn:E; [exact IH|]. cbn [skipws]. now rewrite E. }
  destruct k as [|k]; try reflexivity. cbn [pms]. now rewrite I.
Qed.

Lemma parse_all : (forall v s, jtext v s -> PV v s) /\ (forall l s, jelems l s -> PE l s) /\
  (forall l s, jmembers l s -> PMs l s) /\ (forall m s, jmember m s -> PM m s).
Proof.
  apply json_mut.
  - (* ws *) intros v a s b Wa Wb _ (IH & IH2 & IH3). split; [|split].
    + intros rest N k K. rewrite <- !app_assoc, pv_ws by auto. rewrite !app_length in K.
      rewrite IH; [|now apply nd_ws|lia]. now rewrite skipws_app.
    + intros rest. rewrite <- !app_assoc, skipws_app by auto. apply IH2.
    + intros E. apply app_eq_nil in E as [_ E]. apply app_eq_nil in E as [E _]. auto.
  - (* num *) intros q n J. destruct (jnumber_nonempty q n J) as (c & r & Ec & _). pose proof (jnumber_chars q n J) as F.
    assert (Hc : isnum c = true) by (rewrite Ec in F; inversion F; auto).
    destruct (num_head c Hc) as (H1 & H2 & H3 & H4 & H5 & H6 & H7 & H8).
    split; [|split].
    + intros rest N [|k] K; [lia|]. cbn [pv]. rewrite Ec. cbn [app]. rewrite skipws_self by auto.
      rewrite H2, H3, H4, H5, H6. change (c :: r ++ rest) with ((c :: r) ++ rest). rewrite <- Ec, span_app by auto.
      cbn [fst snd]. rewrite (readnum_spec q n J). reflexivity.
    + intros rest. rewrite Ec. cbn [app]. exists c, (r ++ rest). rewrite skipws_self by auto. split; auto.
      apply Ascii.eqb_neq. exact H7.
    + rewrite Ec. discriminate.
  - (* true *) split; [|split].
    + intros rest N [|k] K; [lia|]. reflexivity.
    + intros rest. do 2 eexists. split; [reflexivity|discriminate].
    + discriminate.
  - (* false *) split; [|split].
    + intros rest N [|k] K; [lia|]. reflexivity.
    + intros rest. do 2 eexists. split; [reflexivity|discriminate].
    + discriminate.
  - (* string *) intros s l (b & Hb & ->). split; [|split].
    + intros rest N [|k] K; [lia|]. cbn [pv]. cbn [app]. rewrite skipws_self by reflexivity.
      change (Ascii.eqb """" """") with true. cbv iota. rewrite <- app_assoc. rewrite (pstr_spec s b rest Hb). reflexivity.
    + intros rest. do 2 eexists. split; [reflexivity|discriminate].
    + discriminate.
  - (* [] *) intros w Ww. split; [|split].
    + intros rest N [|k] K; [lia|]. cbn [pv app]. rewrite skipws_self by reflexivity.
      change (Ascii.eqb "[" """") with false. change (Ascii.eqb "[" "t") with false. change (Ascii.eqb "[" "f") with false.
      change (Ascii.eqb "[" "[") with true. cbv iota. rewrite <- app_assoc, skipws_app by auto. reflexivity.
    + intros rest. do 2 eexists. split; [reflexivity|discriminate].
    + discriminate.
  - (* [...] *) intros v l s _ (IH & IH2). split; [|split].
    + intros rest N [|k] K; [lia|]. cbn [length] in K. rewrite app_length in K. cbn [length] in K. cbn [pv app]. rewrite skipws_self by reflexivity.
      change (Ascii.eqb "[" """") with false. change (Ascii.eqb "[" "t") with false. change (Ascii.eqb "[" "f") with false.
      change (Ascii.eqb "[" "[") with true. cbv iota. rewrite <- app_assoc. cbn [app].
      destruct (IH2 ("]"%char :: rest)) as (c & r & E & Nc). pose proof (pes_ws k (s ++ "]"%char :: rest)) as Q. rewrite E in Q. rewrite E.
      rewrite (proj2 (Ascii.eqb_neq _ _) Nc), Q, IH by lia. reflexivity.
    + intros rest. do 2 eexists. split; [reflexivity|discriminate].
    + discriminate.
  - (* {} *) intros w Ww. split; [|split].
    + intros rest N [|k] K; [lia|]. cbn [pv app]. rewrite skipws_self by reflexivity.
      change (Ascii.eqb "{" """") with false. change (Ascii.eqb "{" "t") with false. change (Ascii.eqb "{" "f") with false.
      change (Ascii.eqb "{" "[") with false. change (Ascii.eqb "{" "{") with true. cbv iota. rewrite <- app_assoc, skipws_app by auto. reflexivity.
    + intros rest. do 2 eexists. split; [reflexivity|discriminate].
    + discriminate.
  - (* {...} *) intros v l s _ (IH & IH2). split; [|split].
    + intros rest N [|k] K; [lia|]. cbn [length] in K. rewrite app_length in K. cbn [length] in K. cbn [pv app]. rewrite skipws_self by reflexivity.
      change (Ascii.eqb "{" """") with false. change (Ascii.eqb "{" "t") with false. change (Ascii.eqb "{" "f") with false.
      change (Ascii.eqb "{" "[") with false. change (Ascii.eqb "{" "{") with true. cbv iota. rewrite <- app_assoc. cbn [app].
      destruct (IH2 ("}"%char :: rest)) as (c & r & E & Nc). pose proof (pms_ws k (s ++ "}"%char :: rest)) as Q. rewrite E in Q. rewrite E.
      rewrite (proj2 (Ascii.eqb_neq _ _) Nc), Q, IH by lia. reflexivity.
    + intros rest. do 2 eexists. split; [reflexivity|discriminate].
    + discriminate.
  - (* one element *) intros v s _ (IH & IH2 & _). split; [|exact IH2].
    intros rest [|k] K; [lia|]. cbn [pes]. rewrite IH; [|reflexivity|lia]. reflexivity.
  - (* more elements *) intros v l s r _ (IH & IH2 & IH3) _ (IHr & _). split.
    + intros rest [|k] K; [lia|]. rewrite !app_length in K. cbn [length] in K. cbn [pes]. rewrite <- app_assoc. rewrite IH; [|reflexivity|lia].
      cbn [app skipws]. change (isws ",") with false. cbv iota. change (Ascii.eqb "," ",") with true. cbv iota. rewrite IHr by lia. reflexivity.
    + intros rest. rewrite <- app_assoc. apply IH2.
  - (* one member *) intros m s _ (IH & NE). split.
    + intros rest [|k] K; [lia|]. destruct (IH ("}"%char :: rest) k) as (s1 & s2 & s3 & E1 & E2 & E3 & E4); [lia|reflexivity|].
      cbn [pms]. rewrite E1. change (negb (Ascii.eqb """" """")) with false. cbv iota. rewrite E2, E3. change (negb (Ascii.eqb ":" ":")) with false. cbv iota. rewrite E4. cbn [skipws]. change (isws "}") with false. cbv iota.
      change (Ascii.eqb "}" ",") with false. change (Ascii.eqb "}" "}") with true. cbv iota. destruct m; reflexivity.
    + exact NE.
  - (* more members *) intros m l s r _ (IH & NE) _ (IHr & _). split.
    + intros rest [|k] K; [lia|]. rewrite !app_length in K. cbn [length] in K. rewrite <- app_assoc.
      destruct (IH ([","%char] ++ r ++ "}"%char :: rest) k) as (s1 & s2 & s3 & E1 & E2 & E3 & E4); [lia|reflexivity|].
      cbn [pms]. rewrite <- app_assoc. rewrite E1. change (negb (Ascii.eqb """" """")) with false. cbv iota. rewrite E2, E3. change (negb (Ascii.eqb ":" ":")) with false. cbv iota. rewrite E4. cbn [app skipws]. change (isws ",") with false. cbv iota.
      change (Ascii.eqb "," ",") with true. cbv iota. rewrite IHr by lia. destruct m; reflexivity.
    + intros rest. rewrite <- app_assoc. apply NE.
  - (* member *) intros key v w1 lk w2 s W1 W2 (b & Hb & ->) _ (IH & _ & _). split.
    + intros rest k K N. rewrite !app_length in K. cbn [length] in K. rewrite app_length in K. cbn [length] in K.
      rewrite <- app_assoc, skipws_app by auto. cbn [app]. rewrite skipws_self by reflexivity.
      do 3 eexists. split; [reflexivity|]. cbn [fst snd]. rewrite <- !app_assoc. split; [apply pstr_spec; exact Hb|].
      rewrite skipws_app by auto. cbn [app]. split; [apply skipws_self; reflexivity|].
      apply IH; auto. lia.
    + intros rest. rewrite <- app_assoc, skipws_app by auto. do 2 eexists. split; [reflexivity|discriminate].
Qed.

Lemma json_unambiguous v v' s : jtext v s -> jtext v' s -> v = v'.
Proof.
  intros H H'. destruct (proj1 parse_all v s H) as (P & _). destruct (proj1 parse_all v' s H') as (P' & _).
  specialize (P [] I _ (Nat.le_refl _)). specialize (P' [] I _ (Nat.le_refl _)). congruence.
Qed.

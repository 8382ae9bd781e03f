(** Proofs about cell data on characters. *)
From Coq Require Import String Ascii QArith.
From Verif Require Import P_Base M_Text M_Print M_Stream P_Stream M_FileText S_FileText P_FileText P_FPMAText P_VTKText M_VTKData S_VTKData P_VTKData M_DataText S_DataText T_FileText.
Local Open Scope list_scope.
Local Open Scope nat_scope.

(** * Substrings *)
Lemma starts_spec p : forall s, starts p s = true <-> exists b, s = p ++ b.
Proof.
  induction p as [|a p IH]; intros s; cbn [starts app].
  - split; [intros _; exists s; reflexivity|reflexivity].
  - destruct s as [|b s]; [split; [discriminate|intros (x & E); discriminate]|].
    rewrite andb_true_iff, Ascii.eqb_eq, IH. split.
    + intros [-> (x & ->)]. exists x. reflexivity.
    + intros (x & E). injection E as -> ->. split; [reflexivity|exists x; reflexivity].
Qed.
Lemma contains_spec p s : contains p s = true <-> occurs p s.
Proof.
  unfold occurs. induction s as [|c s IH]; cbn [contains]; rewrite orb_true_iff, starts_spec.
  - split.
    + intros [(b & E)|H]; [exists [], b; exact E|discriminate].
    + intros (a & b & E). left. exists b. destruct a; [exact E|discriminate].
  - rewrite IH. split.
    + intros [(b & E)|(a & b & ->)]; [exists [], b; exact E|exists (c :: a), b; reflexivity].
    + intros (a & b & E). destruct a as [|x a]; [left; exists b; exact E|]. injection E as -> ->. right. exists a, b. reflexivity.
Qed.
Lemma contains_false p s : contains p s = false <-> ~ occurs p s.
Proof. rewrite <- contains_spec. destruct (contains p s); intuition congruence. Qed.
Lemma occurs_split p a c b : ~ In c p -> occurs p (a ++ c :: b) -> occurs p a \/ occurs p b.
Proof.
  intros Hc (x & y & E). revert a E. induction x as [|z x IH]; intros a E; cbn [app] in E.
  - (* p at the beginning *)
    left. exists []. revert a E. induction p as [|q p IHp]; intros a E.
    + exists a. reflexivity.
    + destruct a as [|d a].
      * injection E as -> _. exfalso. apply Hc. left. reflexivity.
      * injection E as -> E. destruct (IHp (fun H => Hc (or_intror H)) a E) as (b' & E'). exists b'. cbn [app] in *. f_equal. exact E'.
  - destruct a as [|d a].
    + injection E as _ ->. right. exists x, y. reflexivity.
    + injection E as -> E. destruct (IH a E) as [(x' & y' & ->)|H]; [left; exists (z :: x'), y'; reflexivity|right; exact H].
Qed.
Lemma occurs_app_l p a b : occurs p a -> occurs p (a ++ b).
Proof. intros (x & y & ->). exists x, (y ++ b). rewrite <- !app_assoc. reflexivity. Qed.
Lemma occurs_app_r p a b : occurs p b -> occurs p (a ++ b).
Proof. intros (x & y & ->). exists (a ++ x), y. rewrite <- !app_assoc. reflexivity. Qed.
Lemma occurs_char p c s : In c p -> ~ In c s -> ~ occurs p s.
Proof. intros Hc Hs (a & b & ->). apply Hs. rewrite !in_app_iff. auto. Qed.
Lemma nokw_app a c b : c = nl \/ c = blank -> no_keyword a -> no_keyword b -> no_keyword (a ++ c :: b).
Proof.
  intros Hc [A1 A2] [B1 B2]. split; intros H; apply occurs_split in H; try tauto; intros HI; destruct Hc as [->| ->];
    cbn in HI; intuition discriminate.
Qed.
Lemma nokw_l a b : no_keyword (a ++ b) -> no_keyword a.
Proof. intros [H1 H2]. split; intros H; [apply H1|apply H2]; apply occurs_app_l; exact H. Qed.
Lemma nokw_r a b : no_keyword (a ++ b) -> no_keyword b.
Proof. intros [H1 H2]. split; intros H; [apply H1|apply H2]; apply occurs_app_r; exact H. Qed.
Lemma nokw_chars s : ~ In "S"%char s -> no_keyword s.
Proof. intros H. split; apply (occurs_char _ "S"%char); try exact H; cbn; auto 8. Qed.

(** * Lines *)
Lemma getLine_eq l r : no_nl l -> getLine (l ++ nl :: r) = (l, Some r).
Proof.
  induction l as [|c l IH]; intros H; [reflexivity|]. cbn [app getLine].
  destruct (Ascii.eqb_spec c nl) as [->|_]; [exfalso; apply H; left; reflexivity|].
  rewrite IH; [reflexivity|]. intros X. apply H. right. exact X.
Qed.
Lemma getLine_len s l r : getLine s = (l, Some r) -> length r < length s.
Proof.
  revert l r. induction s as [|c s IH]; intros l r E; cbn [getLine] in E; [discriminate|].
  destruct (Ascii.eqb c nl); [injection E as _ <-; cbn; lia|].
  destruct (getLine s) as [l' [r'|]] eqn:G; [|discriminate]. injection E as _ <-. specialize (IH _ _ eq_refl). cbn. lia.
Qed.
Lemma skipTo_len d n : forall s r, skipTo d n s = Some r -> length r <= length s.
Proof.
  induction n as [|n IH]; intros s r E; cbn [skipTo] in E; [injection E as <-; lia|]. destruct s as [|c s]; [discriminate|].
  destruct (Ascii.eqb c d); [injection E as <-; cbn; lia|]. specialize (IH _ _ E). cbn. lia.
Qed.
Lemma skipTo_eq d n l r : ~ In d l -> length l < n -> skipTo d n (l ++ d :: r) = Some r.
Proof.
  revert n. induction l as [|c l IH]; intros [|n] H L; cbn in L; try lia; cbn [app skipTo].
  - rewrite Ascii.eqb_refl. reflexivity.
  - destruct (Ascii.eqb_spec c d) as [->|_]; [exfalso; apply H; left; reflexivity|]. apply IH; [intros X; apply H; right; exact X|lia].
Qed.
Lemma indexText_fuel : forall f1 f2 s, length s <= f1 -> length s <= f2 -> indexText f1 s = indexText f2 s.
Proof.
  induction f1 as [|f1 IH]; intros f2 s H1 H2.
  - destruct s; [|cbn in H1; lia]. destruct f2; reflexivity.
  - destruct s as [|c s]; [destruct f2; reflexivity|]. destruct f2 as [|f2]; [cbn in H2; lia|].
    cbn [indexText]. destruct (getLine (c :: s)) as [l [r|]] eqn:E; [|reflexivity].
    apply getLine_len in E. cbn [length] in *.
    destruct (skipTo nl 500 r) as [r'|] eqn:E'; [apply skipTo_len in E'; rewrite (IH f2 r') by lia|];
      rewrite (IH f2 r) by lia; reflexivity.
Qed.
Definition idxT (s : text) : positions := indexText (length s) s.
Lemma idxT_line l r : no_nl l -> idxT (l ++ nl :: r) =
  if contains (str "SCALARS") l then
    match skipTo nl 500 r with None => [(nameOf l, None)] | Some r' => (nameOf l, Some r') :: idxT r' end
  else if contains (str "VECTORS") l then (nameOf l, Some r) :: idxT r else idxT r.
Proof.
  intros H. unfold idxT at 1. assert (E : exists t s, l ++ nl :: r = t :: s) by (destruct l; simpl; eauto).
  destruct E as (t & s & E). rewrite E. cbn [length indexText].
  assert (L : length r <= length s).
  { apply (f_equal (@length _)) in E. rewrite app_length in E. simpl in E. lia. }
  rewrite <- E, getLine_eq by assumption. unfold idxT.
  destruct (skipTo nl 500 r) as [r'|] eqn:E'; [apply skipTo_len in E'; rewrite (indexText_fuel (length s) (length r')) by lia|];
    rewrite (indexText_fuel (length s) (length r)) by lia; reflexivity.
Qed.
Lemma nokw_contains l : no_keyword l -> contains (str "SCALARS") l = false /\ contains (str "VECTORS") l = false.
Proof. intros [A B]. split; apply contains_false; assumption. Qed.
Lemma idxT_plain_line l r : no_nl l -> no_keyword l -> idxT (l ++ nl :: r) = idxT r.
Proof. intros H N. rewrite idxT_line by exact H. destruct (nokw_contains l N) as [-> ->]. reflexivity. Qed.
Lemma first_line (s : text) : (exists l r, s = l ++ nl :: r /\ no_nl l) \/ no_nl s.
Proof.
  induction s as [|t s IH]; [right; intros []|]. destruct (ascii_dec t nl) as [->|D].
  { left. exists [], s. split; [reflexivity|intros []]. }
  destruct IH as [(l & r & -> & H)|H].
  - left. exists (t :: l), r. split; [reflexivity|]. intros [X|X]; [congruence|]. apply H. exact X.
  - right. intros [X|X]; [congruence|]. apply H. exact X.
Qed.
(** The text is empty or ends with a line end. *)
Definition whole_lines (s : text) : Prop := s = [] \/ exists a, s = a ++ [nl].
Lemma idxT_plain : forall n pre r, length pre <= n -> whole_lines pre -> no_keyword pre -> idxT (pre ++ r) = idxT r.
Proof.
  induction n as [|n IH]; intros pre r HL HE HP.
  - destruct pre; [reflexivity|simpl in HL; lia].
  - destruct HE as [->|(p & ->)]; [reflexivity|]. destruct (first_line (p ++ [nl])) as [(l & r' & E & O)|O].
    2:{ exfalso. apply O. apply in_app_iff. right. left. reflexivity. }
    rewrite E in *. rewrite <- app_assoc. cbn [app]. rewrite idxT_plain_line; [|exact O|exact (nokw_l _ _ HP)]. apply IH.
    + rewrite app_length in HL. simpl in HL. lia.
    + destruct r' as [|t0 r']; [left; reflexivity|right].
      destruct (@exists_last _ (t0 :: r')) as (q & x & Eq); [discriminate|]. rewrite Eq in *. exists q.
      replace (l ++ nl :: q ++ [x]) with ((l ++ nl :: q) ++ [x]) in E by (rewrite <- app_assoc; reflexivity).
      apply app_inj_tail in E as [_ <-]. reflexivity.
    + apply nokw_r in HP. change (nl :: r') with ([nl] ++ r') in HP. exact (nokw_r _ _ HP).
Qed.

(** * Numbers *)
Definition numchar (c : ascii) : bool := is_digit c || existsb (Ascii.eqb c) ["+"; "-"; "."; "e"]%char.
Lemma digits_numchar s : forallb is_digit s = true -> forallb numchar s = true.
Proof. intros H. rewrite forallb_forall in *. intros c Hc. unfold numchar. rewrite (H c Hc). reflexivity. Qed.
Lemma strip_numchar b : forallb is_digit b = true -> forallb numchar (strip b) = true.
Proof. intros H. apply digits_numchar, strip_digits, H. Qed.
Lemma fraction_numchar a b : forallb is_digit a = true -> forallb is_digit b = true -> forallb numchar (with_fraction a b) = true.
Proof.
  intros Ha Hb. unfold with_fraction. rewrite forallb_app, (digits_numchar a Ha). cbn [andb].
  pose proof (strip_numchar b Hb) as S. destruct (strip b); [reflexivity|]. cbn [forallb] in *. exact S.
Qed.
Lemma putN_numchar n : forallb numchar (putN n) = true.
Proof. apply digits_numchar, putN_digits. Qed.
Lemma putExp_numchar X : forallb numchar (putExp X) = true.
Proof.
  unfold putExp. cbn [forallb]. rewrite forallb_app, putN_numchar, (digits_numchar _ (zeros_digits _)). destruct (X <? 0)%Z; reflexivity.
Qed.
Lemma putPos_numchar x : (0 < x)%Q -> forallb numchar (putPos x) = true.
Proof.
  intros H. destruct (putPos_form x H) as (a & b & X & _ & Ha & Hb & [[-> _]| ->] & _).
  - apply fraction_numchar; assumption.
  - rewrite forallb_app, fraction_numchar, putExp_numchar by assumption. reflexivity.
Qed.
Lemma putQ_numchar x : forallb numchar (putQ x) = true.
Proof.
  unfold putQ. destruct (Qcompare_spec x 0) as [E|L|G]; [reflexivity| |apply putPos_numchar; exact G].
  cbn [forallb]. rewrite putPos_numchar; [reflexivity|]. apply (Qopp_lt_compat x 0) in L. exact L.
Qed.
Lemma putZ_numchar z : forallb numchar (putZ z) = true.
Proof. unfold putZ. destruct (z <? 0)%Z; cbn [forallb]; rewrite putN_numchar; reflexivity. Qed.
Section Vals.
Context {C : Type}.
Variable K : fp C.
Lemma putV_numchar v : forallb numchar (putV K v) = true.
Proof. destruct v; [apply putQ_numchar|apply putZ_numchar|apply putN_numchar]. Qed.
(** The characters of a line of numbers. *)
Definition rowchar (c : ascii) : bool := numchar c || Ascii.eqb c blank.
Lemma rowchar_app a b : forallb rowchar a = true -> forallb rowchar b = true -> forallb rowchar (a ++ b) = true.
Proof. intros A B. rewrite forallb_app, A, B. reflexivity. Qed.
Lemma numchar_row s : forallb numchar s = true -> forallb rowchar s = true.
Proof. intros H. rewrite forallb_forall in *. intros c Hc. unfold rowchar. rewrite (H c Hc). reflexivity. Qed.
Lemma rowchar_flat {A} (f : A -> text) l : (forall x, forallb rowchar (f x) = true) -> forallb rowchar (flat_map f l) = true.
Proof. intros H. induction l as [|x l IH]; [reflexivity|]. cbn [flat_map]. apply rowchar_app; auto. Qed.
Lemma putVs_row l : forallb rowchar (putVs K l) = true.
Proof. apply rowchar_flat. intros v. apply rowchar_app; [apply numchar_row, putV_numchar|reflexivity]. Qed.
Lemma row_plain s : forallb rowchar s = true -> no_nl s /\ no_keyword s.
Proof.
  intros H. rewrite forallb_forall in H. split; [|apply nokw_chars]; intros X; apply H in X; discriminate X.
Qed.

Lemma getInt_putZ z w r : (- 2 ^ 31 <= z < 2 ^ 31)%Z -> all_space w = true -> stop r = true -> getInt (mkI (w ++ putZ z ++ r) false) = (Some z, mkI r false).
Proof.
  intros Hz Hw Hr. unfold putZ. destruct (Z.ltb_spec z 0) as [L|L].
  2:{ rewrite getInt_putN; [rewrite Z2N.id by lia; reflexivity| |exact Hw|exact Hr]. change (2 ^ 31)%N with (Z.to_N (2 ^ 31)). apply Z2N.inj_lt; lia. }
  unfold getInt. pose proof (putN_digits (Z.to_N (- z))) as D. pose proof (putN_nonempty (Z.to_N (- z))) as E.
  rewrite sentry_app; [|exact Hw|discriminate|reflexivity]. cbn [app sign]. rewrite Ascii.eqb_refl.
  rewrite span_all by (try assumption; apply stop_digit; exact Hr).
  rewrite putN_value. destruct (putN (Z.to_N (- z))) eqn:P; [easy|]. rewrite Z2N.id by lia. rewrite Z.opp_involutive.
  destruct (Z.ltb_spec z (- 2 ^ 31)); [lia|]. destruct (Z.ltb_spec (2 ^ 31 - 1) z); [lia|]. reflexivity.
Qed.
(** What is read of a written number. *)
Definition copyV (v : num C) : num C := match v with Fl c => Fl (reread K c) | _ => v end.
Lemma copyV_ok v : num_copy K v (copyV v).
Proof. destruct v; cbn; auto. apply reread_copy. Qed.
Lemma readV_put t v prev w r : of_type t v -> all_space w = true -> stop r = true ->
  readV K t prev (mkI (w ++ putV K v ++ r) false) = (Some (copyV v), mkI r false).
Proof.
  intros H Hw Hr. destruct t, v as [c|z|n]; cbn [of_type] in H; try contradiction; cbn [readV putV copyV].
  - rewrite (numtext_putC K c w r Hw Hr). reflexivity.
  - rewrite getInt_putZ by assumption. reflexivity.
  - rewrite getN_putN by assumption. reflexivity.
Qed.
(** Reading sequences: the reader stands before or after the blank that follows a number. *)
Lemma readScalarsT_ok t vals : Forall (of_type t) vals -> forall w r prev, all_space w = true ->
  exists w', all_space w' = true /\ readScalarsT K t (length vals) prev (mkI (w ++ putVs K vals ++ r) false) = Ok (map copyV vals, mkI (w' ++ r) false).
Proof.
  induction 1 as [|v vals Hv _ IH]; intros w r prev Hw.
  - exists w. split; [exact Hw|reflexivity].
  - cbn [length readScalarsT putVs flat_map map]. rewrite <- !app_assoc. rewrite readV_put by (try assumption; reflexivity).
    cbn [use bind]. destruct (IH [blank] r (Some (copyV v)) eq_refl) as (w' & Hw' & E). exists w'. split; [exact Hw'|].
    cbn [app] in E |- *. unfold putVs in E. rewrite E. reflexivity.
Qed.
Lemma readCompsT_ok t v : Forall (of_type t) v -> forall prev w r, length prev = length v -> all_space w = true ->
  exists w', all_space w' = true /\ readCompsT K t prev (mkI (w ++ putVs K v ++ r) false) = (map (fun x => Some (copyV x)) v, mkI (w' ++ r) false).
Proof.
  induction 1 as [|x v Hv _ IH]; intros [|p prev] w r L Hw; try discriminate.
  - exists w. split; [exact Hw|reflexivity].
  - cbn [readCompsT putVs flat_map map]. rewrite <- !app_assoc. rewrite readV_put by (try assumption; reflexivity).
    destruct (IH prev [blank] r ltac:(cbn in L; lia) eq_refl) as (w' & Hw' & E). exists w'. split; [exact Hw'|].
    cbn [app] in E |- *. unfold putVs in E. rewrite E. reflexivity.
Qed.
Lemma use_copies v : mapM use (map (fun x => Some (copyV x)) v) = Ok (map copyV v).
Proof. rewrite <- (map_map copyV Some). apply use_all. Qed.
Lemma readV_zero prev w r : all_space w = true -> stop r = true -> readV K TFl prev (mkI (w ++ str "0.0" ++ r) false) = (Some (Fl (near K 0)), mkI r false).
Proof. intros Hw Hr. cbn [readV]. rewrite (numtext_zero w r Hw Hr). reflexivity. Qed.
Definition vecText (dim : nat) (v : list (num C)) : text := putVs K v ++ (if dim =? 2 then str "0.0 " else []).
Lemma readVectorsT_ok dim t k vals : (dim = 2 -> t = TFl) -> Forall (fun v => length v = k /\ Forall (of_type t) v) vals ->
  forall prev dummy w r, length prev = k -> all_space w = true ->
  exists w', all_space w' = true /\
    readVectorsT K (dim =? 2) t (length vals) prev dummy (mkI (w ++ flat_map (vecText dim) vals ++ r) false) = Ok (map (map copyV) vals, mkI (w' ++ r) false).
Proof.
  intros HT. induction 1 as [|v vals [Lv Hv] _ IH]; intros prev dummy w r L Hw.
  - exists w. split; [exact Hw|reflexivity].
  - cbn [length readVectorsT flat_map map]. unfold vecText at 1. rewrite <- !app_assoc.
    destruct (readCompsT_ok t v Hv prev w ((if dim =? 2 then str "0.0 " else []) ++ flat_map (vecText dim) vals ++ r) ltac:(congruence) Hw) as (w1 & Hw1 & ->).
    assert (LM : length (map (fun x => Some (copyV x)) v) = k) by (rewrite map_length; exact Lv).
    destruct (dim =? 2) eqn:ED.
    + apply Nat.eqb_eq in ED as D. rewrite (HT D) in *. change (str "0.0 ") with (str "0.0" ++ [blank]). rewrite <- app_assoc.
      rewrite readV_zero by (try assumption; reflexivity). rewrite use_copies. cbn [bind].
      destruct (IH (map (fun x => Some (copyV x)) v) (Some (Fl (near K 0))) [blank] r LM eq_refl) as (w' & Hw' & E).
      exists w'. split; [exact Hw'|]. cbn [app] in E |- *. rewrite E. reflexivity.
    + rewrite use_copies. cbn [bind app].
      destruct (IH (map (fun x => Some (copyV x)) v) dummy w1 r LM Hw1) as (w' & Hw' & E).
      exists w'. split; [exact Hw'|]. cbn [app] in E. rewrite E. reflexivity.
Qed.
End Vals.

(** Columns of cell data read from a file that was cut. *)
From Coq Require Import String Ascii QArith.
From Verif Require Import P_Base M_Text M_Print M_Stream P_Stream M_FPMA M_FileText S_FileText P_FileText P_FPMAText P_VTKText M_VTKData S_VTKData P_VTKData M_DataText S_DataText S_DataCut T_FileText P_DataText P_DataText2 P_Cut P_DataCut.
Local Open Scope list_scope.
Local Open Scope nat_scope.

Section Cut.
Context {C : Type}.
Variable K : fp C.
Variable dim : nat.
Notation col := (text * mkind * coldata (num C))%type.
Notation cname := (fun c : col => fst (fst c)).

Lemma teq_refl a : text_eqb a a = true. Proof. apply text_eqb_spec. reflexivity. Qed.
Lemma teq_neq a b : a <> b -> text_eqb a b = false.
Proof. intros H. destruct (text_eqb a b) eqn:E; [|reflexivity]. apply text_eqb_spec in E. contradiction. Qed.
Lemma colsT_cons n0 k0 d0 (cols : list col) : colsT K dim ((n0, k0, d0) :: cols) = colT K dim n0 k0 d0 ++ colsT K dim cols.
Proof. reflexivity. Qed.
Lemma find_skip (b : list col) x name : (forall c, In c b -> good_name (cname c)) -> ~ In name (map cname b) ->
  find name (idxT (colsT K dim b ++ x)) = find name (idxT x).
Proof.
  induction b as [|[[n0 k0] d0] b IH]; intros HP HN; [reflexivity|]. rewrite colsT_cons, <- app_assoc, idx_colT by (apply (HP _ (or_introl eq_refl))).
  cbn [map fst] in HN. specialize (IH (fun c H => HP c (or_intror H)) (fun H => HN (or_intror H))).
  destruct (indexed dim k0); [|exact IH]. cbn [app find]. rewrite teq_neq; [exact IH|]. intros ->. apply HN. left. reflexivity.
Qed.
Lemma body_cut (d : coldata (num C)) q y : q ++ y = bodyT K dim d ++ [nl] -> y <> [] -> exists z, q ++ z = bodyT K dim d.
Proof.
  intros E Hy. destruct (@exists_last _ y Hy) as (z & a & ->). rewrite app_assoc in E. apply app_inj_tail in E as [E _]. exists z. exact E.
Qed.
Lemma find_cut (cols : list col) : (forall c, In c cols -> good_name (cname c)) -> NoDup (map cname cols) ->
  forall p y name kd d, p ++ y = colsT K dim cols -> In (name, kd, d) cols -> indexed dim kd = true ->
  find name (idxT p) = None \/ find name (idxT p) = Some None \/ exists q y' r, find name (idxT p) = Some (Some q) /\ q ++ y' = bodyT K dim d ++ nl :: r.
Proof.
  induction cols as [|[[n0 k0] d0] cols IH]; intros HP ND p y name kd d E Hin HI; [contradiction|].
  rewrite colsT_cons in E. pose proof (HP _ (or_introl eq_refl)) as G0. cbn [fst] in G0. cbn [map fst] in ND. apply NoDup_cons_iff in ND as [N1 N2].
  assert (SAME : name = n0 -> kd = k0 /\ d = d0).
  { intros ->. destruct Hin as [X|X]; [injection X as <- <-; auto|]. exfalso. apply N1. apply in_map_iff. exists (n0, kd, d). auto. }
  assert (FULL : forall l, (name = n0 \/ find name (idxT l) = None \/ find name (idxT l) = Some None \/ exists q y' r, find name (idxT l) = Some (Some q) /\ q ++ y' = bodyT K dim d ++ nl :: r) ->
     p = colT K dim n0 k0 d0 ++ l -> find name (idxT p) = None \/ find name (idxT p) = Some None \/ exists q y' r, find name (idxT p) = Some (Some q) /\ q ++ y' = bodyT K dim d ++ nl :: r).
  { intros l H ->. rewrite idx_colT by exact G0. destruct (text_eqb name n0) eqn:EQ.
    - apply text_eqb_spec in EQ. destruct (SAME EQ) as [-> ->]. subst n0. rewrite HI. cbn [app find]. rewrite teq_refl. right. right.
      exists (bodyT K dim d0 ++ nl :: l), [], l. split; [reflexivity|apply app_nil_r].
    - assert (X : find name ((if indexed dim k0 then [(n0, Some (bodyT K dim d0 ++ nl :: l))] else []) ++ idxT l) = find name (idxT l)).
      { destruct (indexed dim k0); [|reflexivity]. cbn [app find]. rewrite EQ. reflexivity. }
      rewrite X. destruct H as [->|H]; [rewrite teq_refl in EQ; discriminate|exact H]. }
  apply app_eq_app in E as (l & [[Ep E]|[E _]]).
  - apply (FULL l); [|exact Ep]. destruct (text_eqb name n0) eqn:EQ; [left; apply text_eqb_spec; exact EQ|]. right.
    destruct Hin as [X|X]; [injection X as -> _ _; rewrite teq_refl in EQ; discriminate|].
    apply (IH (fun c H => HP c (or_intror H)) N2 l y name kd d); auto.
  - unfold colT in E. symmetry in E. apply app_eq_app in E as (q & [[-> E]|[E Eq]]).
    + destruct l as [|a l].
      * apply (FULL []); [right; left; reflexivity|]. unfold colT. rewrite !app_nil_r in *. rewrite E. reflexivity.
      * destruct (body_cut d0 q (a :: l) ltac:(symmetry; exact E) ltac:(discriminate)) as (z & Ez).
        rewrite (idx_headT K dim n0 k0 q z d0 G0 Ez). destruct (text_eqb name n0) eqn:EQ.
        -- apply text_eqb_spec in EQ. destruct (SAME EQ) as [-> ->]. subst n0. rewrite HI. cbn [find]. rewrite teq_refl. right. right.
           exists q, (z ++ [nl]), []. split; [reflexivity|]. rewrite app_assoc, Ez. reflexivity.
        -- left. destruct (indexed dim k0); [|reflexivity]. cbn [find]. rewrite EQ. reflexivity.
    + destruct q as [|a q].
      * rewrite app_nil_r in E. subst p. pose proof (idx_headT K dim n0 k0 [] (bodyT K dim d0) d0 G0 eq_refl) as X. rewrite app_nil_r in X. rewrite X.
        destruct (text_eqb name n0) eqn:EQ.
        -- apply text_eqb_spec in EQ. destruct (SAME EQ) as [-> ->]. subst n0. rewrite HI. cbn [find]. rewrite teq_refl. right. right.
           exists [], (bodyT K dim d0 ++ [nl]), []. split; reflexivity.
        -- left. destruct (indexed dim k0); [|reflexivity]. cbn [find]. rewrite EQ. reflexivity.
      * destruct (idx_cut_head dim n0 k0 p (a :: q) G0 ltac:(symmetry; exact E) ltac:(discriminate)) as [->|(nm & ->)]; [left; reflexivity|].
        cbn [find]. destruct (text_eqb name nm); auto.
Qed.
(** The head of the column and some of its line are there. *)
Lemma find_kept (b a : list col) name kd d q y x : (forall c, In c b -> good_name (cname c)) -> good_name name -> ~ In name (map cname b) -> indexed dim kd = true ->
  q ++ y = bodyT K dim d ++ nl :: x -> find name (idxT (colsT K dim b ++ headT dim name kd ++ q)) = Some (Some q).
Proof.
  intros HP G HN HI E. rewrite find_skip by assumption. apply app_eq_app in E as (l & [[-> E]|[E _]]).
  - destruct l as [|c l].
    + rewrite app_nil_r. rewrite (idx_headT K dim name kd (bodyT K dim d) [] d G (app_nil_r _)). rewrite HI. cbn [find]. rewrite teq_refl. reflexivity.
    + injection E as <- _. replace (headT dim name kd ++ bodyT K dim d ++ nl :: l) with (colT K dim name kd d ++ l) by (unfold colT; rewrite <- !app_assoc; reflexivity).
      rewrite idx_colT by exact G. rewrite HI. cbn [app find]. rewrite teq_refl. reflexivity.
  - rewrite (idx_headT K dim name kd q l d G ltac:(symmetry; exact E)), HI. cbn [find]. rewrite teq_refl. reflexivity.
Qed.

(** * Reading *)
Lemma readScalars_none t n i : Out i -> 1 <= n -> @readScalarsT C K t n None i = UB.
Proof. intros H L. destruct n; [lia|]. cbn [readScalarsT]. destruct (readV_Out_any K t None i H) as (i1 & -> & _). reflexivity. Qed.
Lemma readVectors_none t n k dummy i : Out i -> 1 <= n -> 1 <= k -> @readVectorsT C K (dim =? 2) t n (repeat None k) dummy i = UB.
Proof.
  intros H L L2. destruct n; [lia|]. cbn [readVectorsT]. destruct (readCompsT_Out K t (repeat None k) i H) as (i1 & -> & _).
  destruct (if dim =? 2 then readV K t dummy i1 else (dummy, i1)) as [d2 i2]. destruct k; [lia|]. reflexivity.
Qed.
Lemma readV_hash t prev u : exists i, readV K t prev (mkI ("#"%char :: u) false) = (Some (zero_of K t), i) /\ Out i.
Proof. destruct t; eexists; (split; [reflexivity|apply Out_failed]). Qed.
(** From the beginning of a file that starts with "#". *)
Lemma readScalars_hash t n u : exists i, readScalarsT K t n None (mkI ("#"%char :: u) false) = Ok (repeat (zero_of K t) n, i).
Proof.
  destruct n as [|n]; [eexists; reflexivity|]. cbn [readScalarsT]. destruct (readV_hash t None u) as (i & -> & H). cbn [use bind].
  destruct (readScalarsT_Out K t (zero_of K t) n i H) as (i' & ->). eexists. reflexivity.
Qed.
Lemma readVectors_hash t n k u : 1 <= n -> 2 <= k -> readVectorsT K (dim =? 2) t n (repeat None k) None (mkI ("#"%char :: u) false) = UB.
Proof.
  intros L L2. destruct n; [lia|]. destruct k as [|[|k]]; [lia|lia|]. cbn [readVectorsT repeat]. cbn [readCompsT].
  destruct (readV_hash t None u) as (i & -> & H). destruct (readV_Out_any K t None i H) as (i1 & -> & H1).
  destruct (readCompsT_Out K t (repeat None k) i1 H1) as (i2 & -> & H2). destruct (if dim =? 2 then readV K t None i2 else (None, i2)) as [d3 i3]. reflexivity.
Qed.

Lemma copies_first j l : Forall2 (num_copy K) (firstn j l) (map (copyV K) (firstn j l)).
Proof. apply map_copy. Qed.
Lemma copies_first2 j l : Forall2 (Forall2 (num_copy K)) (firstn j l) (map (map (copyV K)) (firstn j l)).
Proof. induction (firstn j l) as [|x r IH]; constructor; [apply map_copy|exact IH]. Qed.

(** Reading the column from the beginning of its line of values. *)
Lemma read_cut n file ps s name kd d q y r : 1 <= dim -> of_kind n d kd -> readable_kind dim kd -> find name ps = Some (Some q) -> q ++ y = bodyT K dim d ++ r ->
  (readColumnT K dim n file ps (mkI s false) name kd = UB /\ forall m, length (bodyT K dim (first_values m d)) <= length q -> m <= n -> m = 0) \/
  exists d' j i, j <= n /\ readColumnT K dim n file ps (mkI s false) name kd = Ok (d', i) /\ cut_copy K j d d' /\
     forall m, length (bodyT K dim (first_values m d)) <= length q -> m <= n -> m <= j.
Proof.
  intros Hd HK HR HF E. unfold readColumnT, seek. cbn [failed]. rewrite HF.
  destruct d as [l|l]; destruct kd as [t|t k]; cbn [of_kind] in HK; try contradiction; destruct HK as [<- HK]; cbn [bodyT first_values] in *.
  - destruct (cutScalars K t l HK [] q y r None eq_refl E) as [(_ & -> & Hm)|(j & v & i & Hj & -> & Hm)]; cbn [app] in Hm.
    + left. split; [reflexivity|exact Hm].
    + right. eexists _, j, i. split; [exact Hj|]. cbn [bind fst snd]. split; [reflexivity|]. split; [|exact Hm].
      cbn [cut_copy]. eexists _, v. split; [apply copies_first|reflexivity].
  - destruct (cutVectors K dim t k l (proj2 HR) HK (repeat None k) None [] q y r (repeat_length _ _) eq_refl E) as [(_ & -> & Hm)|(j & v & i & Hj & -> & Hm)]; cbn [app] in Hm.
    + left. split; [reflexivity|exact Hm].
    + right. eexists _, j, i. split; [exact Hj|]. cbn [bind fst snd]. split; [reflexivity|]. split; [|exact Hm].
      cbn [cut_copy]. eexists _, v. split; [apply copies_first2|reflexivity].
Qed.
Lemma last_snoc {A} (l : list A) d : l <> [] -> exists a v, l = a ++ [v] /\ last l d = v.
Proof. intros H. destruct (@exists_last _ l H) as (a & v & ->). exists a, v. split; [reflexivity|apply last_last]. Qed.
(** The cut is right behind a value. *)
Lemma read_end n file ps s name kd d j : 1 <= j <= n -> of_kind n d kd -> readable_kind dim kd -> find name ps = Some (Some (bodyT K dim (first_values j d))) ->
  exists d' i, readColumnT K dim n file ps (mkI s false) name kd = Ok (d', i) /\ last_repeated K j d d'.
Proof.
  intros Hj HK HR HF. unfold readColumnT, seek. cbn [failed]. rewrite HF.
  destruct d as [l|l]; destruct kd as [t|t k]; cbn [of_kind] in HK; try contradiction; destruct HK as [HL HK]; cbn [bodyT first_values last_repeated].
  - assert (HJ : Forall (of_type t) (firstn j l)) by (rewrite <- (firstn_skipn j l) in HK; apply Forall_app in HK; apply HK).
    assert (LJ : length (firstn j l) = j) by (rewrite firstn_length; lia).
    destruct (firstn j l) as [|x l'] eqn:EF; [cbn in LJ; lia|]. inversion HJ as [|? ? Hx Hl']; subst.
    match goal with |- context [readScalarsT K t ?n None ?st] =>
      replace (readScalarsT K t n None st) with (readScalarsT K t (S (length l' + (length l - length (x :: l')))) None st) by (f_equal; cbn [length] in *; lia) end.
    cbn [readScalarsT putVs flat_map]. rewrite <- app_assoc. pose proof (readV_put K t x None [] ([blank] ++ flat_map (fun v => putV K v ++ [blank]) l') Hx eq_refl eq_refl) as RV. cbn [app] in RV |- *.
    rewrite RV. clear RV.
    cbn [use bind]. destruct (endScalars K t l' Hl' [blank] (length l - length (x :: l')) (Some (copyV K x)) (copyV K x) eq_refl eq_refl) as (i & EE).
    unfold putVs in EE. cbn [app] in EE. rewrite EE. cbn [bind fst snd]. eexists _, i. split; [reflexivity|].
    destruct (last_snoc (copyV K x :: map (copyV K) l') (copyV K x) ltac:(discriminate)) as (a & v & Ea & Ev). exists a, v.
    rewrite <- Ea. split; [apply (map_copy K (x :: l'))|]. cbn [app]. f_equal. f_equal. f_equal. rewrite <- Ev. cbn [last].
    destruct (map (copyV K) l'); reflexivity.
  - assert (HJ : Forall (fun v => length v = k /\ Forall (of_type t) v) (firstn j l)) by (rewrite <- (firstn_skipn j l) in HK; apply Forall_app in HK; apply HK).
    assert (LJ : length (firstn j l) = j) by (rewrite firstn_length; lia).
    destruct (firstn j l) as [|x l'] eqn:EF; [cbn in LJ; lia|]. inversion HJ as [|? ? [Lx Hx] Hl']; subst x0 l0.
    subst n. match goal with |- context [readVectorsT K ?b t ?n ?pv None ?st] =>
      replace (readVectorsT K b t n pv None st) with (readVectorsT K b t (S (length l' + (length l - length (x :: l')))) pv None st) by (f_equal; cbn [length] in *; lia) end. subst j.
    cbn [readVectorsT flat_map]. unfold vecText at 1. rewrite <- app_assoc.
    destruct (readCompsT_ok K t x Hx (repeat None k) [] ((if dim =? 2 then str "0.0 " else []) ++ flat_map (vecText K dim) l') ltac:(rewrite repeat_length; congruence) eq_refl) as (w1 & Hw1 & ER).
    cbn [app] in ER. rewrite ER. clear ER.
    assert (G : exists d2 w2, (if dim =? 2 then readV K t None (mkI (w1 ++ (if dim =? 2 then str "0.0 " else []) ++ flat_map (vecText K dim) l') false)
                  else (None, mkI (w1 ++ (if dim =? 2 then str "0.0 " else []) ++ flat_map (vecText K dim) l') false)) = (d2, mkI (w2 ++ flat_map (vecText K dim) l') false) /\ all_space w2 = true).
    { destruct HR as [_ HT]. destruct (dim =? 2) eqn:ED.
      - apply Nat.eqb_eq in ED as D. rewrite (HT D). change (str "0.0 ") with (str "0.0" ++ [blank]). rewrite <- app_assoc. rewrite readV_zero by (try assumption; reflexivity).
        eexists _, [blank]. split; reflexivity.
      - exists None, w1. split; [reflexivity|exact Hw1]. }
    destruct G as (d2 & w2 & -> & Hw2). rewrite use_copies. cbn [bind]. replace (map (fun u => Some (copyV K u)) x) with (map Some (map (copyV K) x)) by apply map_map.
    destruct (endVectors K dim t k l' (proj2 HR) Hl' w2 (length l - length (x :: l')) (map (copyV K) x) d2 Hw2 ltac:(rewrite map_length; exact Lx)) as (i & ->).
    cbn [bind fst snd]. eexists _, i. split; [reflexivity|].
    destruct (last_snoc (map (copyV K) x :: map (map (copyV K)) l') (map (copyV K) x) ltac:(discriminate)) as (a & v & Ea & Ev). exists a, v.
    rewrite <- Ea. split.
    { pose proof (copies_first2 (length (x :: l')) (x :: l')) as F. rewrite firstn_all in F. exact F. }
    cbn [app]. f_equal. f_equal. f_equal. rewrite <- Ev. cbn [last].
    destruct (map (map (copyV K)) l'); reflexivity.
Qed.
Lemma cut_all n kd d d' : of_kind n d kd -> cut_copy K n d d' -> col_copy K d d'.
Proof.
  intros H. destruct d as [l|l], kd as [t|t k]; cbn [of_kind] in H; try contradiction; destruct H as [HL H]; destruct d' as [l'|l']; cbn [cut_copy col_copy]; try tauto;
    intros (a & v & F & ->); subst n; rewrite Nat.sub_diag, firstn_all in *; cbn [repeat]; rewrite app_nil_r; exact F.
Qed.

(** * Files: [pre] is what comes before the columns *)
Lemma cut_main n pre (cols : list col) p lost name kd d : 2 <= dim -> 1 <= n -> (exists u, pre = "#"%char :: u) -> whole_lines pre -> no_keyword pre ->
  (forall c, In c cols -> good_name (cname c)) -> NoDup (map cname cols) ->
  p ++ lost = pre ++ colsT K dim cols -> In (name, kd, d) cols -> of_kind n d kd -> readable_kind dim kd ->
  readDataText K dim n p [(name, kd)] = UB \/ exists d' j, j <= n /\ readDataText K dim n p [(name, kd)] = Ok [d'] /\ cut_copy K j d d'.
Proof.
  intros Hd Hn (u & Hu) HE HP HG ND E Hin HK HR. unfold readDataText. fold (idxT p).
  assert (PS : p = [] \/ exists v, p = "#"%char :: v).
  { destruct p as [|c p]; [left; reflexivity|right]. rewrite Hu in E. injection E as -> _. exists p. reflexivity. }
  assert (FC : find name (idxT p) = None \/ find name (idxT p) = Some None \/ exists q y' r, find name (idxT p) = Some (Some q) /\ q ++ y' = bodyT K dim d ++ nl :: r).
  { apply app_eq_app in E as (l & [[-> E]|[E _]]).
    - rewrite (idxT_plain (length pre)) by auto. eapply find_cut; eauto. apply readable_indexed. exact HR.
    - left. rewrite E in HP. rewrite (idxT_nokw (length p) p (le_n _) (nokw_l _ _ HP)). reflexivity. }
  assert (KD : kd = MS match kd with MS t => t | MV t _ => t end \/ exists t, kd = MV t dim).
  { destruct kd as [t|t k]; [left; reflexivity|right]. exists t. destruct HR as [-> _]. reflexivity. }
  cbn [readColumnsT]. destruct FC as [FC|[FC|(q & y' & r & FC & Eq)]].
  - (* not there: from the beginning of the file *)
    unfold readColumnT, seek. cbn [failed]. rewrite FC. destruct PS as [->|(v & ->)].
    + left. destruct KD as [->|(t & ->)]; [rewrite readScalars_none|rewrite readVectors_none]; try reflexivity; try lia; apply Out_empty.
    + destruct KD as [KD|(t & KD)]; rewrite KD in *.
      * right. destruct (readScalars_hash match kd with MS t => t | MV t _ => t end n v) as (i & ->). cbn [bind fst snd]. eexists _, 0. split; [lia|]. split; [reflexivity|].
        destruct d as [l|l]; cbn [of_kind] in HK; [|contradiction]. cbn [cut_copy]. exists [], (zero_of K match kd with MS t => t | MV t _ => t end).
        destruct HK as [<- _]. rewrite Nat.sub_0_r. split; [constructor|reflexivity].
      * left. rewrite readVectors_hash by lia. reflexivity.
  - unfold readColumnT, seek. cbn [failed]. rewrite FC. left.
    destruct KD as [->|(t & ->)]; [rewrite readScalars_none|rewrite readVectors_none]; try reflexivity; try lia; apply Out_failed.
  - destruct (read_cut n p (idxT p) p name kd d q y' (nl :: r) ltac:(lia) HK HR FC Eq) as [(-> & _)|(d' & j & i & Hj & -> & HC & _)]; [left; reflexivity|].
    right. exists d', j. split; [exact Hj|]. split; [reflexivity|exact HC].
Qed.
Lemma kept_main n pre (b a : list col) p lost more name kd d j : 2 <= dim -> 1 <= j <= n -> whole_lines pre -> no_keyword pre ->
  (forall c, In c b -> good_name (cname c)) -> good_name name -> ~ In name (map cname b) ->
  p = pre ++ colsT K dim b ++ headT dim name kd ++ bodyT K dim (first_values j d) ++ more ->
  p ++ lost = pre ++ colsT K dim (b ++ (name, kd, d) :: a) -> of_kind n d kd -> readable_kind dim kd ->
  exists d' j', j <= j' <= n /\ readDataText K dim n p [(name, kd)] = Ok [d'] /\ cut_copy K j' d d'.
Proof.
  intros Hd Hj HE HP HG G HN Ep E HK HR. unfold readDataText. fold (idxT p). cbn [readColumnsT].
  set (q := bodyT K dim (first_values j d) ++ more) in *.
  assert (EQ : q ++ lost = bodyT K dim d ++ nl :: colsT K dim a).
  { rewrite Ep in E. unfold colsT in E. rewrite flat_map_app in E. cbn [flat_map fst snd] in E. unfold colT at 3 in E. rewrite <- !app_assoc in E.
    apply app_inv_head, app_inv_head, app_inv_head in E. exact E. }
  assert (FC : find name (idxT p) = Some (Some q)).
  { rewrite Ep. rewrite (idxT_plain (length pre)) by auto. eapply find_kept; eauto. apply readable_indexed. exact HR. }
  assert (LQ : length (bodyT K dim (first_values j d)) <= length q) by (unfold q; rewrite app_length; lia).
  destruct (read_cut n p (idxT p) p name kd d q lost _ ltac:(lia) HK HR FC EQ) as [(-> & X)|(d' & j' & i & Hj' & -> & HC & X)].
  - exfalso. specialize (X j LQ ltac:(lia)). lia.
  - specialize (X j LQ ltac:(lia)). exists d', j'. split; [lia|]. split; [reflexivity|exact HC].
Qed.
Lemma end_main n pre (b : list col) name kd d j : 2 <= dim -> 1 <= j <= n -> whole_lines pre -> no_keyword pre ->
  (forall c, In c b -> good_name (cname c)) -> good_name name -> ~ In name (map cname b) -> of_kind n d kd -> readable_kind dim kd ->
  exists d', readDataText K dim n (pre ++ colsT K dim b ++ headT dim name kd ++ bodyT K dim (first_values j d)) [(name, kd)] = Ok [d'] /\ last_repeated K j d d'.
Proof.
  intros Hd Hj HE HP HG G HN HK HR. set (p := pre ++ _). unfold readDataText. fold (idxT p). cbn [readColumnsT].
  assert (FC : find name (idxT p) = Some (Some (bodyT K dim (first_values j d)))).
  { unfold p. rewrite (idxT_plain (length pre)) by auto. apply (find_kept b [] name kd (first_values j d) _ [nl] []); auto. apply readable_indexed. exact HR. }
  destruct (read_end n p (idxT p) p name kd d j Hj HK HR FC) as (d' & i & -> & HL). exists d'. split; [reflexivity|exact HL].
Qed.
Lemma lost_main n pre (b : list col) name kd : 2 <= dim -> 1 <= n -> (exists u, pre = "#"%char :: u) -> whole_lines pre -> no_keyword pre ->
  (forall c, In c b -> good_name (cname c)) -> ~ In name (map cname b) -> readable_kind dim kd ->
  readDataText K dim n (pre ++ colsT K dim b) [(name, kd)] = match kd with MS t => Ok [Sc (repeat (zero_of K t) n)] | MV _ _ => UB end.
Proof.
  intros Hd Hn (u & Hu) HE HP HG HN HR. set (p := pre ++ _). unfold readDataText. fold (idxT p). cbn [readColumnsT].
  assert (FC : find name (idxT p) = None).
  { unfold p. rewrite (idxT_plain (length pre)) by auto. rewrite <- (app_nil_r (colsT K dim b)). rewrite find_skip by assumption. reflexivity. }
  unfold readColumnT, seek. cbn [failed]. rewrite FC. unfold p. rewrite Hu. cbn [app]. destruct kd as [t|t k].
  - match goal with |- context [mkI ("#"%char :: ?v) false] => destruct (readScalars_hash t n v) as (i & ->) end. reflexivity.
  - destruct HR as [-> _]. rewrite readVectors_hash by lia. reflexivity.
Qed.
End Cut.

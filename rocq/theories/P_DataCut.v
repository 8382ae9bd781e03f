(** Proofs about cell data files that were cut. *)
From Coq Require Import String Ascii QArith.
From Verif Require Import P_Base M_Text M_Print M_Stream P_Stream M_FPMA M_FileText S_FileText P_FileText P_FPMAText P_VTKText M_VTKData S_VTKData P_VTKData M_DataText S_DataText T_FileText P_DataText P_DataText2 P_Cut.
Local Open Scope list_scope.
Local Open Scope nat_scope.

Section Cut.
Context {C : Type}.
Variable K : fp C.

(** * Single values *)
Lemma readV_Out t (v : num C) i : Out i -> exists i', readV K t (Some v) i = (Some v, i') /\ Out i'.
Proof.
  intros H. unfold Out in H. exists (mkI (chars i) true). split; [|reflexivity].
  destruct t; cbn [readV]; unfold getDec, getInt, getN; rewrite H; reflexivity.
Qed.
Lemma readV_Out_any t (p : option (num C)) i : Out i -> exists i', readV K t p i = (p, i') /\ Out i'.
Proof.
  intros H. unfold Out in H. exists (mkI (chars i) true). split; [|reflexivity].
  destruct t; cbn [readV]; unfold getDec, getInt, getN; rewrite H; reflexivity.
Qed.
Lemma readV_some t (p : option (num C)) i : p <> None -> fst (readV K t p i) <> None.
Proof.
  intros H. destruct t; cbn [readV].
  - destruct (getDec i) as [[q|] i']; cbn [fst]; congruence.
  - destruct (getInt i) as [[q|] i']; cbn [fst]; congruence.
  - destruct (getN i) as [[q|] i']; cbn [fst]; congruence.
Qed.
Lemma span_digits_all s : forallb is_digit s = true -> span is_digit s = (s, []).
Proof. intros H. pose proof (span_all is_digit s [] H I) as E. rewrite app_nil_r in E. exact E. Qed.
Lemma getInt_prefix z w c y : all_space w = true -> c ++ y = w ++ putZ z -> y <> [] -> Out (snd (getInt (mkI c false))).
Proof.
  intros Hw H Hy. apply app_eq_app in H as (l & [[-> E]|[-> E]]).
  2:{ rewrite all_space_app in Hw. apply andb_true_iff in Hw as [Hw _]. unfold getInt, sentry. cbn [failed chars]. rewrite skip_all by exact Hw. apply Out_failed. }
  destruct l as [|a l].
  { unfold getInt, sentry. cbn [failed chars]. rewrite app_nil_r, skip_all by exact Hw. apply Out_failed. }
  assert (G : forall s, forallb is_digit s = true -> span is_digit s = (s, [])) by exact span_digits_all.
  unfold putZ in E. unfold getInt. destruct (z <? 0)%Z.
  - cbn [app] in E. injection E as <- E. pose proof (putN_digits (Z.to_N (- z))) as D. rewrite E, forallb_app in D. apply andb_true_iff in D as [D _].
    rewrite sentry_app; [|exact Hw|discriminate|reflexivity]. cbn [sign]. rewrite Ascii.eqb_refl. rewrite (G l D).
    destruct l as [|x l]; [apply Out_failed|]. cbv zeta. destruct (_ <? _)%Z; [apply Out_failed|]. destruct (_ <? _)%Z; [apply Out_failed|apply Out_empty].
  - pose proof (putN_digits (Z.to_N z)) as D. rewrite E, forallb_app in D. apply andb_true_iff in D as [D _].
    rewrite sentry_app; [|exact Hw|discriminate|apply (head_digits (a :: l)); [discriminate|exact D]].
    assert (S1 : sign (a :: l) = (false, a :: l)) by (pose proof (sign_digits (a :: l) [] ltac:(discriminate) D) as S; rewrite app_nil_r in S; exact S).
    rewrite S1, (G (a :: l) D). cbv zeta. destruct (_ <? _)%Z; [apply Out_failed|]. destruct (_ <? _)%Z; [apply Out_failed|apply Out_empty].
Qed.
(** A number that was cut: nothing more comes out of the stream. *)
Lemma readV_prefix t v w c y prev : of_type t v -> all_space w = true -> c ++ y = w ++ putV K v -> y <> [] ->
  Out (snd (readV K t prev (mkI c false))).
Proof.
  intros HT Hw H Hy. destruct t, v as [x|z|n]; cbn [of_type] in HT; try contradiction; cbn [readV putV] in *.
  - pose proof (getDec_prefix _ _ w c y (numtext_putC K x) Hw H Hy) as G. destruct (getDec (mkI c false)) as [[q|] i]; exact G.
  - pose proof (getInt_prefix z w c y Hw H Hy) as G. destruct (getInt (mkI c false)) as [[q|] i]; exact G.
  - destruct (getN_prefix n w c y Hw H Hy) as [->|(v & i & -> & G & _)]; [apply Out_failed|exact G].
Qed.

(** * Scalars *)
Lemma readScalarsT_Out t (v : num C) k : forall i, Out i -> exists i', readScalarsT K t k (Some v) i = Ok (repeat v k, i').
Proof.
  induction k as [|k IH]; intros i H; [eexists; reflexivity|]. cbn [readScalarsT]. destruct (readV_Out t v i H) as (i1 & -> & H1).
  cbn [use bind]. destruct (IH i1 H1) as (i2 & ->). eexists. reflexivity.
Qed.
Lemma cutScalars t vals : Forall (of_type t) vals -> forall w q y r prev, all_space w = true -> q ++ y = w ++ putVs K vals ++ r ->
  (prev = None /\ readScalarsT K t (length vals) prev (mkI q false) = UB /\
     forall m, length (w ++ putVs K (firstn m vals)) <= length q -> m <= length vals -> m = 0) \/
  exists j v i, j <= length vals /\ readScalarsT K t (length vals) prev (mkI q false) = Ok (map (copyV K) (firstn j vals) ++ repeat v (length vals - j), i) /\
     forall m, length (w ++ putVs K (firstn m vals)) <= length q -> m <= length vals -> m <= j.
Proof.
  induction 1 as [|x vals Hx _ IH]; intros w q y r prev Hw E.
  - right. exists 0, (In32 0), (mkI q false). repeat split; auto.
  - cbn [length readScalarsT putVs flat_map] in *. rewrite <- !app_assoc in E.
    destruct (cut_split _ _ _ _ _ E) as [(c' & -> & Ec)|(y' & Hy & Ey)].
    + rewrite readV_put; [|exact Hx|exact Hw|eapply stop_cut; rewrite <- Ec; reflexivity]. cbn [use bind].
      destruct (IH [blank] c' y r (Some (copyV K x)) eq_refl) as [(N & _)|(j & v & i & Hj & Er & Hm)]; [rewrite <- Ec; reflexivity|discriminate N|].
      right. exists (S j), v, i. split; [lia|]. rewrite Er. cbn [bind fst snd firstn map app Nat.sub]. split; [reflexivity|].
      intros [|m] L1 L2; [lia|]. apply le_n_S. apply Hm; [|lia]. cbn [firstn flat_map] in L1. unfold putVs in *. cbn [firstn flat_map] in L1. rewrite !app_length in *. cbn [length] in *. lia.
    + pose proof (readV_prefix t x w q y' prev Hx Hw Ey Hy) as HO. destruct (readV K t prev (mkI q false)) as [[v|] i1] eqn:ER; cbn [snd] in HO.
      * right. cbn [use bind]. destruct (readScalarsT_Out t v (length vals) i1 HO) as (i2 & ->).
        exists 0, v, i2. split; [lia|]. split; [reflexivity|]. intros [|m] L1 L2; [lia|]. exfalso.
        unfold putVs in L1; unfold putVs in L1; cbn [firstn flat_map] in L1. apply (f_equal (@length _)) in Ey. destruct y'; [contradiction|]. rewrite !app_length in *. cbn [length] in *. lia.
      * left. split; [|split; [reflexivity|]].
        { destruct prev as [pv|]; [|reflexivity]. exfalso. apply (readV_some t (Some pv) (mkI q false)); [discriminate|]. rewrite ER. reflexivity. }
        intros [|m] L1 L2; [reflexivity|]. exfalso.
        unfold putVs in L1; cbn [firstn flat_map] in L1. apply (f_equal (@length _)) in Ey. destruct y'; [contradiction|]. rewrite !app_length in *. cbn [length] in *. lia.
Qed.
Lemma endScalars t vals : Forall (of_type t) vals -> forall w k prev p0, all_space w = true -> prev = Some p0 ->
  exists i, readScalarsT K t (length vals + k) prev (mkI (w ++ putVs K vals) false) = Ok (map (copyV K) vals ++ repeat (last (map (copyV K) vals) p0) k, i).
Proof.
  induction 1 as [|x vals Hx _ IH]; intros w k prev p0 Hw ->.
  - cbn [length Nat.add putVs flat_map app map last]. apply readScalarsT_Out. rewrite app_nil_r. unfold Out, sentry. cbn [failed chars]. rewrite skip_all by exact Hw. reflexivity.
  - cbn [length Nat.add readScalarsT putVs flat_map]. rewrite <- app_assoc. rewrite readV_put by (try assumption; reflexivity). cbn [use bind].
    destruct (IH [blank] k (Some (copyV K x)) (copyV K x) eq_refl eq_refl) as (i & E). exists i. unfold putVs in E. cbn [app] in E |- *. rewrite E. cbn [bind fst snd map app].
    f_equal. f_equal. f_equal. destruct (map (copyV K) vals) eqn:EM; [reflexivity|]. f_equal. f_equal. clear. cbn [last].
    revert n. induction l as [|a l IH]; intros n; [reflexivity|]. cbn [last]. destruct l; [reflexivity|]. apply (IH a).
Qed.

(** * Vectors *)
Lemma readCompsT_Out t : forall (p : list (option (num C))) i, Out i -> exists i', readCompsT K t p i = (p, i') /\ Out i'.
Proof.
  induction p as [|x p IH]; intros i H; [exists i; split; [reflexivity|exact H]|]. cbn [readCompsT].
  destruct (readV_Out_any t x i H) as (i1 & -> & H1). destruct (IH i1 H1) as (i2 & -> & H2). exists i2. split; [reflexivity|exact H2].
Qed.
Lemma cutComps t v : Forall (of_type t) v -> forall prev w q y r, length prev = length v -> all_space w = true -> q ++ y = w ++ putVs K v ++ r ->
  (exists w' c', all_space w' = true /\ readCompsT K t prev (mkI q false) = (map (fun x => Some (copyV K x)) v, mkI c' false) /\ c' ++ y = w' ++ r /\
     length q - length (w ++ putVs K v) <= length c') \/
  (exists x i, readCompsT K t prev (mkI q false) = (x, i) /\ Out i /\ length x = length v /\ (~ In None prev -> ~ In None x) /\
     length q < length (w ++ putVs K v)).
Proof.
  induction 1 as [|x v Hx _ IH]; intros [|p prev] w q y r L Hw E; try discriminate L.
  - left. exists w, q. cbn [readCompsT map]. repeat split; [exact Hw|exact E|lia].
  - cbn [readCompsT putVs flat_map map] in *. rewrite <- !app_assoc in E.
    destruct (cut_split _ _ _ _ _ E) as [(c' & -> & Ec)|(y' & Hy & Ey)].
    + rewrite readV_put; [|exact Hx|exact Hw|eapply stop_cut; rewrite <- Ec; reflexivity].
      destruct (IH prev [blank] c' y r ltac:(cbn in L; lia) eq_refl) as [(w' & c2 & Hw' & Er & E2 & L2)|(u & i & Er & HO & Lu & Hn & L2)]; [rewrite <- Ec; reflexivity| |].
      * left. exists w', c2. rewrite Er. repeat split; [exact Hw'|exact E2|]. unfold putVs in L2. rewrite !app_length in *. cbn [length] in *. lia.
      * right. exists (Some (copyV K x) :: u), i. rewrite Er. split; [reflexivity|]. split; [exact HO|]. split; [cbn [length]; lia|]. split.
        { intros N [X|X]; [discriminate|]. apply Hn; [intros Y; apply N; right; exact Y|exact X]. }
        unfold putVs in L2. rewrite !app_length in *. cbn [length] in *. lia.
    + right. pose proof (readV_prefix t x w q y' p Hx Hw Ey Hy) as HO. pose proof (readV_some t p (mkI q false)) as HS.
      destruct (readV K t p (mkI q false)) as [x' i1]; cbn [fst snd] in *.
      destruct (readCompsT_Out t prev i1 HO) as (i2 & -> & H2). exists (x' :: prev), i2. split; [reflexivity|]. split; [exact H2|]. split; [cbn [length] in *; lia|]. split.
      * intros N [X|X]; [|apply N; right; exact X]. apply HS; [|exact X]. intros ->. apply N. left. reflexivity.
      * apply (f_equal (@length _)) in Ey. destruct y'; [contradiction|]. rewrite !app_length in *. cbn [length] in *. lia.
Qed.
Lemma use_complete (x : list (option (num C))) : ~ In None x -> exists v, x = map Some v /\ mapM use x = Ok v.
Proof.
  induction x as [|[a|] x IH]; intros H; [exists []; split; reflexivity| |exfalso; apply H; left; reflexivity].
  destruct IH as (v & -> & E); [intros X; apply H; right; exact X|]. exists (a :: v). split; [reflexivity|]. cbn [mapM use bind]. rewrite E. reflexivity.
Qed.
Lemma use_dec (x : list (option (num C))) : (~ In None x) \/ mapM use x = UB.
Proof.
  induction x as [|[a|] x IH]; [left; intros []| |right; reflexivity].
  destruct IH as [H|H]; [left; intros [X|X]; [discriminate|exact (H X)]|right]. cbn [mapM use bind]. rewrite H. reflexivity.
Qed.
Lemma readVectorsT_Out pad t (v : list (num C)) k : forall dummy i, Out i -> exists i', readVectorsT K pad t k (map Some v) dummy i = Ok (repeat v k, i').
Proof.
  induction k as [|k IH]; intros dummy i H; [eexists; reflexivity|]. cbn [readVectorsT]. destruct (readCompsT_Out t (map Some v) i H) as (i1 & -> & H1).
  assert (HD : exists d2 i2, (if pad then readV K t dummy i1 else (dummy, i1)) = (d2, i2) /\ Out i2).
  { destruct pad; [|eauto]. destruct (readV_Out_any t dummy i1 H1) as (i2 & -> & H2). eauto. }
  destruct HD as (d2 & i2 & -> & H2). rewrite use_all. cbn [bind]. destruct (IH d2 i2 H2) as (i3 & ->). eexists. reflexivity.
Qed.
Lemma some_map (v : list (num C)) : ~ In None (map (fun x => Some (copyV K x)) v).
Proof. intros X. apply in_map_iff in X as (x & X & _). discriminate. Qed.
Lemma cutVectors dim t k vals : (dim = 2 -> t = TFl) -> Forall (fun v => length v = k /\ Forall (of_type t) v) vals ->
  forall prev dummy w q y r, length prev = k -> all_space w = true -> q ++ y = w ++ flat_map (vecText K dim) vals ++ r ->
  (In None prev /\ readVectorsT K (dim =? 2) t (length vals) prev dummy (mkI q false) = UB /\
     forall m, length (w ++ flat_map (vecText K dim) (firstn m vals)) <= length q -> m <= length vals -> m = 0) \/
  exists j v i, j <= length vals /\
     readVectorsT K (dim =? 2) t (length vals) prev dummy (mkI q false) = Ok (map (map (copyV K)) (firstn j vals) ++ repeat v (length vals - j), i) /\
     forall m, length (w ++ flat_map (vecText K dim) (firstn m vals)) <= length q -> m <= length vals -> m <= j.
Proof.
  intros HT. induction 1 as [|x vals [Lx Hx] _ IH]; intros prev dummy w q y r L Hw E.
  - right. exists 0, [], (mkI q false). repeat split; auto.
  - cbn [length readVectorsT flat_map] in *. unfold vecText at 1 in E. rewrite <- !app_assoc in E.
    assert (LM : length (map (fun u => Some (copyV K u)) x) = k) by (rewrite map_length; exact Lx).
    destruct (cutComps t x Hx prev w q y _ ltac:(congruence) Hw E) as [(w1 & c1 & Hw1 & Er & E1 & L1)|(u & i1 & Er & HO & Lu & Hn & L1)]; rewrite Er.
    + (* the vector is complete *)
      assert (ST : (exists d2 w2 c2, (if dim =? 2 then readV K t dummy (mkI c1 false) else (dummy, mkI c1 false)) = (d2, mkI c2 false) /\ all_space w2 = true /\
                       c2 ++ y = w2 ++ flat_map (vecText K dim) vals ++ r /\ length q - length (w ++ vecText K dim x) <= length c2) \/
                   (exists d2 i2, (if dim =? 2 then readV K t dummy (mkI c1 false) else (dummy, mkI c1 false)) = (d2, i2) /\ Out i2 /\
                       length q < length (w ++ vecText K dim x))).
      { assert (VT : vecText K dim x = putVs K x ++ (if dim =? 2 then str "0.0 " else [])) by reflexivity. rewrite VT. clear VT. destruct (dim =? 2) eqn:ED.
        - apply Nat.eqb_eq in ED as D. rewrite (HT D) in *. change (str "0.0 ") with (str "0.0" ++ [blank]) in *. rewrite <- app_assoc in E1.
          destruct (cut_split _ _ _ _ _ E1) as [(c2 & -> & Ec)|(y' & Hy & Ey)].
          + left. exists (Some (Fl (near K 0))), [blank], c2. rewrite readV_zero; [|exact Hw1|eapply stop_cut; rewrite <- Ec; reflexivity].
            split; [reflexivity|]. split; [reflexivity|]. split; [rewrite <- Ec; reflexivity|].
            assert (LC : c2 = [] \/ 1 <= length c2) by (destruct c2; [left; reflexivity|right; cbn; lia]).
            assert (LT : length q + length y = length w + length (putVs K x) + length (str "0.0" ++ [blank]) + length (flat_map (vecText K dim) vals ++ r)).
            { apply (f_equal (@length _)) in E. rewrite !app_length in *. cbn [length] in *. lia. }
            assert (LT2 : length c2 + length y = 1 + length (flat_map (vecText K dim) vals ++ r)).
            { apply (f_equal (@length _)) in Ec. rewrite !app_length in *. cbn [length] in *. lia. }
            rewrite !app_length in *. change (length (str "0.0")) with 3 in *. cbn [length] in *. lia.
          + right. pose proof (getDec_prefix _ _ w1 c1 y' numtext_zero Hw1 Ey Hy) as G. cbn [readV].
            assert (LT : length q + length y = length w + length (putVs K x) + 4 + length (flat_map (vecText K dim) vals ++ r)).
            { apply (f_equal (@length _)) in E. rewrite !app_length in *. change (length (str "0.0")) with 3 in *. cbn [length] in *. lia. }
            assert (LC : length q < length w + length (putVs K x) + 4).
            { apply (f_equal (@length _)) in E1. apply (f_equal (@length _)) in Ey. destruct y'; [contradiction|]. rewrite !app_length in *. change (length (str "0.0")) with 3 in *. cbn [length] in *. lia. }
            destruct (getDec (mkI c1 false)) as [[q2|] i2]; eexists; eexists; (split; [reflexivity|]); (split; [exact G|]);
              rewrite !app_length; change (length (str "0.0")) with 3; cbn [length]; lia.
        - left. exists dummy, w1, c1. split; [reflexivity|]. split; [exact Hw1|]. split; [exact E1|]. rewrite app_nil_r. exact L1. }
      destruct ST as [(d2 & w2 & c2 & Ed & Hw2 & E2 & L2)|(d2 & i2 & Ed & HO & L2)]; rewrite Ed; rewrite use_copies; cbn [bind].
      * destruct (IH (map (fun u => Some (copyV K u)) x) d2 w2 c2 y r LM Hw2 E2) as [(N & _)|(j & v & i & Hj & E3 & Hm)]; [exfalso; exact (some_map x N)|].
        right. exists (S j), v, i. split; [lia|]. rewrite E3. cbn [bind fst snd firstn map app Nat.sub]. split; [reflexivity|].
        intros [|m] A B; [lia|]. apply le_n_S. apply Hm; [|lia]. cbn [firstn flat_map] in A.
        apply (f_equal (@length _)) in E2. apply (f_equal (@length _)) in E.
        unfold vecText at 1 in A. unfold vecText at 1 in L2. rewrite !app_length in *. lia.
      * right. replace (map (fun u => Some (copyV K u)) x) with (map Some (map (copyV K) x)) by apply map_map.
        destruct (readVectorsT_Out (dim =? 2) t (map (copyV K) x) (length vals) d2 i2 HO) as (i3 & ->). cbn [bind fst snd].
        exists 1, (map (copyV K) x), i3. split; [lia|]. cbn [firstn map app Nat.sub]. rewrite Nat.sub_0_r. split; [reflexivity|].
        intros [|m] A B; [lia|]. exfalso. cbn [firstn flat_map] in A. rewrite !app_length in *. lia.
    + assert (HD : exists d2 i2, (if dim =? 2 then readV K t dummy i1 else (dummy, i1)) = (d2, i2) /\ Out i2).
      { destruct (dim =? 2); [|eauto]. destruct (readV_Out_any t dummy i1 HO) as (i2 & -> & H2). eauto. }
      destruct HD as (d2 & i2 & -> & H2).
      assert (NO : forall m, length (w ++ flat_map (vecText K dim) (firstn m (x :: vals))) <= length q -> m = 0).
      { intros [|m] A; [lia|]. exfalso. cbn [firstn flat_map] in A. unfold vecText at 1 in A. rewrite !app_length in *. lia. }
      destruct (use_dec u) as [N|U].
      * right. destruct (use_complete u N) as (v & -> & ->). cbn [bind]. destruct (readVectorsT_Out (dim =? 2) t v (length vals) d2 i2 H2) as (i3 & ->).
        exists 0, v, i3. split; [lia|]. cbn [bind fst snd]. split; [reflexivity|]. intros m A B. rewrite (NO m A). lia.
      * left. rewrite U. split; [|split; [reflexivity|intros m A B; exact (NO m A)]].
        destruct (use_dec prev) as [N|U']; [|].
        { exfalso. specialize (Hn N). destruct (use_complete u Hn) as (v & _ & X). rewrite X in U. discriminate. }
        clear - U'. induction prev as [|[a|] prev IH]; [discriminate U'| |left; reflexivity]. right. apply IH. cbn [mapM use bind] in U'. destruct (mapM use prev); congruence || discriminate.
Qed.
Lemma endVectors dim t k vals : (dim = 2 -> t = TFl) -> Forall (fun v => length v = k /\ Forall (of_type t) v) vals ->
  forall w n p0 dummy, all_space w = true -> length p0 = k ->
  exists i, readVectorsT K (dim =? 2) t (length vals + n) (map Some p0) dummy (mkI (w ++ flat_map (vecText K dim) vals) false)
            = Ok (map (map (copyV K)) vals ++ repeat (last (map (map (copyV K)) vals) p0) n, i).
Proof.
  intros HT. induction 1 as [|x vals [Lx Hx] _ IH]; intros w n p0 dummy Hw L0.
  - cbn [length Nat.add flat_map app map last]. apply readVectorsT_Out. rewrite app_nil_r. unfold Out, sentry. cbn [failed chars]. rewrite skip_all by exact Hw. reflexivity.
  - cbn [length Nat.add readVectorsT flat_map]. unfold vecText at 1. rewrite <- app_assoc.
    destruct (readCompsT_ok K t x Hx (map Some p0) w ((if dim =? 2 then str "0.0 " else []) ++ flat_map (vecText K dim) vals) ltac:(rewrite map_length; congruence) Hw) as (w1 & Hw1 & ->).
    assert (G : exists d2 w2, (if dim =? 2 then readV K t dummy (mkI (w1 ++ (if dim =? 2 then str "0.0 " else []) ++ flat_map (vecText K dim) vals) false)
                  else (dummy, mkI (w1 ++ (if dim =? 2 then str "0.0 " else []) ++ flat_map (vecText K dim) vals) false)) = (d2, mkI (w2 ++ flat_map (vecText K dim) vals) false) /\ all_space w2 = true).
    { destruct (dim =? 2) eqn:ED.
      - apply Nat.eqb_eq in ED as D. rewrite (HT D). change (str "0.0 ") with (str "0.0" ++ [blank]). rewrite <- app_assoc. rewrite readV_zero by (try assumption; reflexivity).
        eexists _, [blank]. split; reflexivity.
      - exists dummy, w1. split; [reflexivity|exact Hw1]. }
    destruct G as (d2 & w2 & -> & Hw2). rewrite use_copies. cbn [bind]. replace (map (fun u => Some (copyV K u)) x) with (map Some (map (copyV K) x)) by apply map_map.
    destruct (IH w2 n (map (copyV K) x) d2 Hw2 ltac:(rewrite map_length; exact Lx)) as (i & ->). exists i. cbn [bind fst snd map app].
    f_equal. f_equal. f_equal. destruct (map (map (copyV K)) vals) as [|b l]; [reflexivity|]. f_equal. f_equal. cbn [last]. clear.
    revert b. induction l as [|a l IH]; intros b; [reflexivity|]. cbn [last]. destruct l; [reflexivity|]. apply (IH a).
Qed.

(** * The index of a file that was cut *)
Variable dim : nat.
Lemma idxT_nonl s : no_nl s -> idxT s = [] \/ idxT s = [(nameOf s, None)].
Proof.
  intros H. unfold idxT. destruct s as [|c s]; [left; reflexivity|]. cbn [length indexText].
  assert (G : forall l, no_nl l -> getLine l = (l, None)).
  { clear. induction l as [|a l IH]; intros H; [reflexivity|]. cbn [getLine]. destruct (Ascii.eqb_spec a nl) as [->|_]; [exfalso; apply H; left; reflexivity|].
    rewrite IH; [reflexivity|]. intros X. apply H. right. exact X. }
  rewrite (G _ H). destruct (_ || _); auto.
Qed.
Lemma idxT_nokw : forall n s, length s <= n -> no_keyword s -> idxT s = [].
Proof.
  induction n as [|n IH]; intros s HL HK; [destruct s; [reflexivity|cbn in HL; lia]|].
  destruct (first_line s) as [(l & r & -> & O)|O].
  - rewrite idxT_plain_line; [|exact O|exact (nokw_l _ _ HK)]. apply IH; [rewrite app_length in HL; cbn in HL; lia|].
    apply nokw_r in HK. change (nl :: r) with ([nl] ++ r) in HK. exact (nokw_r _ _ HK).
  - unfold idxT. destruct s as [|c s]; [reflexivity|]. cbn [length indexText].
    assert (G : forall l, no_nl l -> getLine l = (l, None)).
    { clear. induction l as [|a l IH]; intros H; [reflexivity|]. cbn [getLine]. destruct (Ascii.eqb_spec a nl) as [->|_]; [exfalso; apply H; left; reflexivity|].
      rewrite IH; [reflexivity|]. intros X. apply H. right. exact X. }
    rewrite (G _ O). destruct (nokw_contains _ HK) as [-> ->]. reflexivity.
Qed.
Lemma skipTo_none d n s : ~ In d s -> length s < n -> skipTo d n s = None.
Proof.
  revert n. induction s as [|c s IH]; intros [|n] H L; cbn in L; try lia; cbn [skipTo]; [reflexivity|].
  destruct (Ascii.eqb_spec c d) as [->|_]; [exfalso; apply H; left; reflexivity|]. apply IH; [intros X; apply H; right; exact X|lia].
Qed.
Lemma nonl_prefix a b : no_nl (a ++ b) -> no_nl a.
Proof. intros H X. apply H. apply in_app_iff. auto. Qed.

(** The first line(s) of a column. *)
Definition head1 (name : text) (kd : mkind) : text :=
  match kd with MS _ => str "SCALARS " ++ name ++ str " double 1"
  | MV _ k => (if k =? dim then str "VECTORS " else if k =? dim * dim then str "TENZORS " else []) ++ name ++ str " double" end.
Lemma head1_nonl name kd : good_name name -> no_nl (head1 name kd).
Proof.
  intros (_ & W & _). pose proof (name_no_nl name W) as NN. destruct kd as [t|t k]; cbn [head1].
  - apply no_nl_app; [intros X; cbn in X; intuition discriminate|]. apply no_nl_app; [exact NN|]. intros X; cbn in X; intuition discriminate.
  - apply no_nl_app; [|apply no_nl_app; [exact NN|]; intros X; cbn in X; intuition discriminate].
    destruct (k =? dim); [intros X; cbn in X; intuition discriminate|]. destruct (k =? dim * dim); [intros X; cbn in X; intuition discriminate|intros []].
Qed.
(** The head of a column and the beginning [q] of its line of values. *)
Lemma idx_headT name kd q y (d : coldata (num C)) : good_name name -> q ++ y = bodyT K dim d ->
  idxT (headT dim name kd ++ q) = if indexed dim kd then [(name, Some q)] else [].
Proof.
  intros G E. pose proof (idx_colT K dim name kd (Sc []) [] G) as H0. (* the shape of the head, with an empty line of values *)
  destruct G as (N & W & P). destruct (body_plain K dim d) as [B1 B2]. rewrite <- E in B1, B2.
  pose proof (nonl_prefix _ _ B1) as Q1. pose proof (nokw_l _ _ B2) as Q2. pose proof (idxT_nokw (length q) q (le_n _) Q2) as IQ.
  assert (GN : good_name name) by (repeat split; auto; apply P).
  clear H0. assert (ND : no_keyword (name ++ str " double")).
  { change (str " double") with (blank :: str "double"). apply nokw_app; [right; reflexivity|exact P|]. apply nokw_chars. cbn. intuition discriminate. }
  destruct kd as [t|t k]; cbn [headT indexed].
  - replace (scalarHead name ++ q) with (head1 name (MS t) ++ nl :: str "LOOKUP_TABLE default" ++ nl :: q)
      by (unfold scalarHead, head1; repeat (rewrite <- !app_assoc; cbn [app]); reflexivity).
    rewrite idxT_line by (apply head1_nonl; exact GN). unfold head1. change (str "SCALARS ") with (str "SCALARS" ++ [blank]). rewrite <- app_assoc. cbn [app].
    match goal with |- context [contains (str "SCALARS") ?l] => assert (EC : contains (str "SCALARS") l = true) end.
    { apply contains_spec. exists [], (blank :: name ++ str " double 1"). reflexivity. }
    rewrite EC. rewrite (skipTo_eq nl 500 (str "LOOKUP_TABLE default")); [|intros X; cbn in X; intuition discriminate|cbn; lia].
    rewrite IQ. pose proof (nameOf_word (str "SCALARS") name (str " double 1")) as NW. cbn [app] in NW.
    rewrite NW; [reflexivity| | | | |]; try assumption; try reflexivity; [intros X; cbn in X; intuition discriminate|cbn; lia].
  - replace (vectorHead dim k name ++ q) with (head1 name (MV t k) ++ nl :: q) by (unfold vectorHead, head1; repeat (rewrite <- !app_assoc; cbn [app]); reflexivity).
    rewrite idxT_line by (apply head1_nonl; exact GN). unfold head1. rewrite IQ.
    destruct (k =? dim) eqn:Ek.
    + change (str "VECTORS ") with (str "VECTORS" ++ [blank]). rewrite <- app_assoc. change ([blank] ++ name ++ str " double") with (blank :: name ++ str " double").
      assert (E1 : contains (str "SCALARS") (str "VECTORS" ++ blank :: name ++ str " double") = false).
      { apply contains_false. intros X. apply occurs_split in X; [|cbn; intuition discriminate]. destruct X as [X|X]; [|exact (proj1 ND X)].
        apply contains_spec in X. discriminate X. }
      assert (E2 : contains (str "VECTORS") (str "VECTORS" ++ blank :: name ++ str " double") = true).
      { apply contains_spec. exists [], (blank :: name ++ str " double"). reflexivity. }
      rewrite E1, E2. rewrite nameOf_word; [reflexivity| | | | |]; try assumption; try reflexivity; [intros X; cbn in X; intuition discriminate|cbn; lia].
    + assert (NK : no_keyword ((if k =? dim * dim then str "TENZORS " else []) ++ name ++ str " double")).
      { destruct (k =? dim * dim); [|exact ND]. apply nokw_str_app; [|exact ND|exists (str "TENZORS"); reflexivity]. split; intros X; apply contains_spec in X; discriminate X. }
      destruct (nokw_contains _ NK) as [-> ->]. reflexivity.
Qed.
(** A beginning of a head. *)
Lemma idx_cut_head name kd p y : good_name name -> p ++ y = headT dim name kd -> y <> [] -> idxT p = [] \/ exists nm, idxT p = [(nm, None)].
Proof.
  intros G E Hy. pose proof (head1_nonl name kd G) as HN.
  assert (H : (exists z, p ++ z = head1 name kd) \/ (exists t q z, kd = MS t /\ p = head1 name kd ++ nl :: q /\ q ++ z = str "LOOKUP_TABLE default")).
  { destruct kd as [t|t k]; cbn [headT] in E.
    - replace (scalarHead name) with (head1 name (MS t) ++ nl :: str "LOOKUP_TABLE default" ++ [nl]) in E
        by (unfold scalarHead, head1; repeat (rewrite <- !app_assoc; cbn [app]); reflexivity).
      apply app_eq_app in E as (l & [[-> E]|[E1 E]]); [|left; exists l; symmetry; exact E1].
      destruct l as [|c l]; [left; exists []; rewrite !app_nil_r; reflexivity|]. injection E as <- E. right. exists t, l.
      symmetry in E. change (l ++ y = str "LOOKUP_TABLE default" ++ [nl]) in E. apply app_eq_app in E as (z & [[-> Ez]|[Ez E]]).
      + destruct z as [|a z]; [exists []; rewrite !app_nil_r; auto|]. exfalso. destruct z as [|b z]; [|discriminate Ez].
        cbn in Ez. destruct y; [contradiction|discriminate Ez].
      + exists z. auto.
    - replace (vectorHead dim k name) with (head1 name (MV t k) ++ [nl]) in E by (unfold vectorHead, head1; repeat (rewrite <- !app_assoc; cbn [app]); reflexivity).
      left. apply app_eq_app in E as (l & [[-> E]|[E1 E]]); [|exists l; symmetry; exact E1].
      destruct l as [|c l]; [exists []; rewrite !app_nil_r; reflexivity|]. exfalso. destruct l as [|b l]; [|discriminate E]. cbn in E. destruct y; [contradiction|discriminate E]. }
  destruct H as [(z & Ez)|(t & q & z & -> & -> & Ez)].
  - rewrite <- Ez in HN. destruct (idxT_nonl p (nonl_prefix _ _ HN)) as [H|H]; [left; exact H|right; eauto].
  - right. rewrite idxT_line by exact HN.
    assert (EC : contains (str "SCALARS") (head1 name (MS t)) = true).
    { apply contains_spec. exists [], (str " " ++ name ++ str " double 1"). reflexivity. }
    rewrite EC. assert (LQ : no_nl (str "LOOKUP_TABLE default")) by (intros X; cbn in X; intuition discriminate). rewrite <- Ez in LQ.
    rewrite (skipTo_none nl 500 q); [eauto|exact (nonl_prefix _ _ LQ)|]. apply (f_equal (@length _)) in Ez. rewrite app_length in Ez. cbn in Ez. lia.
Qed.
End Cut.

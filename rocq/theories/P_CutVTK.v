(** The VTK reader on the beginning of a file. *)
From Coq Require Import String Ascii QArith Permutation.
From Verif Require Import Base P_Base M_Conn S_Conn M_Mesh M_Connections S_Mesh M_Text M_Print M_Stream P_Stream M_FPMA M_VTK M_VTKWrite M_FileText S_FPMA S_VTK P_FPMA P_VTK P_FileText P_FPMAText P_VTKText P_Cut.
Local Open Scope list_scope.
Local Open Scope N_scope.

Lemma drop_end c : forall n t, no_nl t -> (length t < n)%nat -> (exists y, c ++ y = t ++ [nl]) -> drop_line n c = [].
Proof.
  intros n t Ht L [y E]. destruct (list_eq_dec ascii_dec y []) as [->|Hy].
  - rewrite app_nil_r in E. subst c. apply drop_line_text; assumption.
  - assert (exists z, c ++ z = t) as [z <-].
    { destruct (exists_last Hy) as (y' & a & ->). rewrite app_assoc in E. apply app_inj_tail in E as [E _]. eauto. }
    assert (Hc : no_nl c) by (intros H; apply Ht; apply in_or_app; left; exact H). rewrite app_length in L. clear - Hc L.
    revert n L. induction c as [|a c IH]; intros [|n] L; cbn [length] in L; try reflexivity; [lia|]. cbn [drop_line].
    destruct (Ascii.eqb_spec a nl) as [->|_]; [exfalso; apply Hc; left; reflexivity|]. apply IH; [intros H; apply Hc; right; exact H|lia].
Qed.
Lemma Out_space s f : all_space s = true -> Out (mkI s f).
Proof. intros H. destruct f; [reflexivity|]. unfold Out, sentry. cbn [failed chars]. rewrite skip_all by exact H. reflexivity. Qed.
Lemma span_space s : forall a, span is_space s = (a, []) -> all_space s = true.
Proof.
  induction s as [|c s IH]; intros a H; [reflexivity|]. cbn [span] in H. destruct (is_space c) eqn:E; [|discriminate H].
  destruct (span is_space s) as [b t] eqn:F. injection H as <- ->. cbn. rewrite E. apply (IH b eq_refl).
Qed.
Lemma Out_cases i : Out i -> failed i = true \/ all_space (chars i) = true.
Proof.
  unfold Out, sentry. destruct i as [s f]. cbn [failed chars]. destruct f; [auto|]. unfold skip_ws. destruct (span is_space s) as [a b] eqn:E. cbn [snd].
  destruct b; [|discriminate]. intros _. right. exact (span_space s a E).
Qed.
Lemma drop_space n : forall s, all_space s = true -> all_space (drop_line n s) = true.
Proof.
  induction n as [|n IH]; intros [|c s] H; try exact H. cbn [drop_line]. cbn in H. apply andb_true_iff in H as [_ H].
  destruct (Ascii.eqb c nl); [exact H|apply IH; exact H].
Qed.
Lemma Out_ignore n i : Out i -> Out (ignore n i).
Proof.
  intros H. unfold ignore. destruct (failed i) eqn:E; [exact H|]. destruct (Out_cases i H) as [F|F]; [congruence|]. apply Out_space, drop_space, F.
Qed.

Section CutVTK.
Context {C : Type}.
Variable K : fp C.
Local Notation g := (reread K).
Local Notation o := (charOps K).
Local Notation zero := (near K 0).
Lemma rdW_out b i : Out i -> rdW o b i = (b, mkI (chars i) true).
Proof. intros H. cbn [rdW charOps]. unfold getWord. unfold Out in H. rewrite H. reflexivity. Qed.
(** * Points *)
Lemma rdPoints3_length old : forall i l i', rdPoints3 o old i = Ok (l, i') -> length l = length old.
Proof.
  induction old as [|p old IH]; intros i l i' H; cbn [rdPoints3] in H; [injection H as <- <-; reflexivity|].
  apply bind_ok in H as (x & _ & H). apply bind_ok in H as (y & _ & H). apply bind_ok in H as (z & _ & H). apply bind_ok in H as ([q j] & E & H).
  injection H as <- <-. cbn [length fst]. rewrite (IH _ _ _ E). reflexivity.
Qed.
Lemma rdPoints2_length old : forall d i l i', rdPoints2 o d old i = Ok (l, i') -> length l = length old.
Proof.
  induction old as [|p old IH]; intros d i l i' H; cbn [rdPoints2] in H; [injection H as <- <-; reflexivity|].
  apply bind_ok in H as (x & _ & H). apply bind_ok in H as (y & _ & H). apply bind_ok in H as (z & _ & H). apply bind_ok in H as ([q j] & E & H).
  injection H as <- <-. cbn [length fst]. rewrite (IH _ _ _ _ E). reflexivity.
Qed.
Lemma rdC_out c i : Out i -> exists c' i', rdC o c i = Ok (c', i') /\ Out i'.
Proof. intros H. rewrite outC by exact H. eexists _, _. split; [reflexivity|apply Out_failed]. Qed.
Lemma out_points2 old : forall d i, Out i -> exists l i', rdPoints2 o d old i = Ok (l, i') /\ Out i'.
Proof.
  induction old as [|p old IH]; intros d i H; cbn [rdPoints2]; [eauto|]. rewrite outC by exact H. cbn [bind fst snd].
  rewrite outC by apply Out_failed. cbn [bind fst snd]. rewrite outC by apply Out_failed. cbn [bind fst snd chars].
  destruct (IH d _ (Out_failed (chars i))) as (l & i' & -> & Hi'). cbn [bind fst snd]. eauto.
Qed.
(** Complete points are read as usual, whatever follows. *)
Lemma rdC_put c x w a r : all_space w = true -> is_space a = true -> rdC o c (mkI (w ++ putC K x ++ a :: r) false) = Ok (g x, mkI (a :: r) false).
Proof. intros Hw Ha. cbn [rdC charOps]. rewrite (numtext_putC K x) by (assumption || exact Ha). reflexivity. Qed.
Lemma rdC_put1 c x b a r : is_space b = true -> is_space a = true -> rdC o c (mkI (b :: putC K x ++ a :: r) false) = Ok (g x, mkI (a :: r) false).
Proof. intros Hb Ha. apply (rdC_put c x [b] a r); [cbn; rewrite Hb; reflexivity|exact Ha]. Qed.
Definition wsp (w : text) {A} (l : list A) : text := match l with [] => w | _ => [nl] end.
Lemma points3_app vs : forall old1 old2 w r, length old1 = length vs -> all_space w = true ->
  rdPoints3 o (old1 ++ old2) (mkI (w ++ flat_map (putPoint3 K) vs ++ r) false) =
  (q <- rdPoints3 o old2 (mkI (wsp w vs ++ r) false) ;; Ok (map (map3 g) vs ++ fst q, snd q)).
Proof.
  induction vs as [|[[x y] z] vs IH]; intros [|p old1] old2 w r L Hw; try discriminate L.
  - cbn [app map flat_map wsp]. destruct (rdPoints3 o old2 (mkI (w ++ r) false)) as [[q j]| | |]; reflexivity.
  - cbn [app rdPoints3 flat_map]. unfold putPoint3 at 1. cbn [fst snd]. repeat (rewrite <- !app_assoc; cbn [app]).
    rewrite rdC_put by (assumption || reflexivity). cbn [bind fst snd].
    rewrite rdC_put1 by reflexivity. cbn [bind fst snd]. rewrite rdC_put1 by reflexivity. cbn [bind fst snd].
    change (nl :: flat_map (putPoint3 K) vs ++ r) with ([nl] ++ flat_map (putPoint3 K) vs ++ r). rewrite IH by (reflexivity || (injection L; auto)).
    assert (E : wsp [nl] vs = [nl]) by (destruct vs; reflexivity). rewrite E. cbn [wsp]. destruct (rdPoints3 o old2 (mkI ([nl] ++ r) false)) as [[q j]| | |]; reflexivity.
Qed.
Lemma InStep_nil_out h p r i : InStep K h p r [] i -> Out i.
Proof.
  intros (F & S & _). destruct i as [c f]. cbn [chars failed] in *. apply Out_space.
  assert (A : all_space (c ++ r) = true).
  { revert S. generalize (c ++ r). clear. intros s H. remember [] as ts. revert Heqts. induction H as [|c l s Hc H IH|n l s Hn Hs H IH|y x q l s Hg Hq Hs H IH]; intros E; try discriminate E; [reflexivity|].
    cbn. rewrite Hc. apply IH. exact E. }
  rewrite all_space_app in A. apply andb_true_iff in A as [A _]. exact A.
Qed.
Lemma shown_ws h w ts s : all_space w = true -> fshown K h ts s -> fshown K h ts (w ++ s).
Proof.
  intros Hw H. induction w as [|c w IH]; [exact H|]. cbn in Hw. apply andb_true_iff in Hw as [A B]. apply fs_space; [exact A|apply IH; exact B].
Qed.
(** In the middle of the points. *)
Definition ptok3 (l : list (C * C * C)) : list (tok C) := flat_map (fun p => [Tc (fst (fst p)); Tc (snd (fst p)); Tc (snd p)]) l.
Lemma points3_cut vs old w q y : length old = length vs -> all_space w = true -> q ++ y = flat_map (putPoint3 K) vs ++ [nl] ->
  exists l i, rdPoints3 o old (mkI (w ++ q) false) = Ok (l, i) /\ Out i.
Proof.
  intros L Hw E. assert (Sh : fshown K g (ptok3 vs ++ []) ((w ++ q) ++ y)).
  { rewrite <- app_assoc, E. clear - Hw. induction w as [|c w IH]; [apply sh_points, sh_nl; constructor|].
    cbn in Hw. apply andb_true_iff in Hw as [A B]. apply fs_space; [exact A|apply IH; exact B]. }
  assert (RM : readMany readPoint (length old) (ptok3 vs ++ []) = Ok (vs, [])) by (rewrite L; apply readMany_points).
  destruct (cut_points3 K g (w ++ q) y old (ptok3 vs ++ []) (mkI (w ++ q) false) vs []) as (l & i & R & [[_ B]|B]); eauto.
  - split; [reflexivity|]. split; [exact Sh|]. exists []. reflexivity.
  - exists l, i. split; [exact R|]. apply (InStep_nil_out _ _ _ _ B).
Qed.
(** Two dimensions: the third number is read into dummy. *)
Lemma rdC_zero c b a r : is_space b = true -> is_space a = true -> rdC o c (mkI (b :: str "0.0" ++ a :: r) false) = Ok (zero, mkI (a :: r) false).
Proof. intros Hb Ha. cbn [rdC charOps].
  assert (E : getDec (mkI (b :: str "0.0" ++ a :: r) false) = (Some 0%Q, mkI (a :: r) false)) by (apply (numtext_zero [b]); [cbn; rewrite Hb; reflexivity|exact Ha]).
  rewrite E. reflexivity.
Qed.
Lemma points2_app vs : forall d old1 old2 w r, length old1 = length vs -> all_space w = true -> d = zero ->
  rdPoints2 o d (old1 ++ old2) (mkI (w ++ flat_map (putPoint2 K) vs ++ r) false) =
  (q <- rdPoints2 o zero old2 (mkI (wsp w vs ++ r) false) ;; Ok (map (map2 g) vs ++ fst q, snd q)).
Proof.
  induction vs as [|[x y] vs IH]; intros d [|p old1] old2 w r L Hw ->; try discriminate L.
  - cbn [app map flat_map wsp]. destruct (rdPoints2 o zero old2 (mkI (w ++ r) false)) as [[q j]| | |]; reflexivity.
  - cbn [app rdPoints2 flat_map]. unfold putPoint2 at 1. cbn [fst snd]. change (str " 0.0") with (blank :: str "0.0"). repeat (rewrite <- !app_assoc; cbn [app]).
    rewrite rdC_put by (assumption || reflexivity). cbn [bind fst snd].
    rewrite rdC_put1 by reflexivity. cbn [bind fst snd]. rewrite rdC_zero by reflexivity. cbn [bind fst snd].
    change (nl :: flat_map (putPoint2 K) vs ++ r) with ([nl] ++ flat_map (putPoint2 K) vs ++ r). rewrite IH by (reflexivity || (injection L; auto)).
    assert (E : wsp [nl] vs = [nl]) by (destruct vs; reflexivity). rewrite E. cbn [wsp]. destruct (rdPoints2 o zero old2 (mkI ([nl] ++ r) false)) as [[q j]| | |]; reflexivity.
Qed.
Definition ptok2 (l : list (C * C)) : list (tok C) := flat_map (fun p => [Tc (g (fst p)); Tc (g (snd p)); Tc zero]) l.
Lemma sh_points2 l ts s : fshown K (fun c => c) ts s -> fshown K (fun c => c) (ptok2 l ++ ts) (flat_map (putPoint2 K) l ++ s).
Proof.
  intros H. induction l as [|[x y] l IH]; [exact H|]. unfold ptok2. cbn [flat_map]. unfold putPoint2 at 1. cbn [fst snd app].
  change (str " 0.0") with (blank :: str "0.0"). repeat (rewrite <- !app_assoc; cbn [app]).
  apply (fs_c K _ (g x) _ (round6 (val K x))); [reflexivity|apply numtext_putC|reflexivity|]. apply fs_space; [reflexivity|].
  apply (fs_c K _ (g y) _ (round6 (val K y))); [reflexivity|apply numtext_putC|reflexivity|]. apply fs_space; [reflexivity|].
  apply (fs_c K _ zero _ 0%Q); [reflexivity|apply numtext_zero|reflexivity|]. apply fs_space; [reflexivity|]. exact IH.
Qed.
Lemma cut_points2 p r old : forall d ts i l ts', InStep K (fun c => c) p r ts i -> readMany readPoint (length old) ts = Ok (l, ts') ->
  exists l' i', rdPoints2 o d old i = Ok (l', i') /\ (InStep K (fun c => c) p r ts' i' \/ Out i').
Proof.
  induction old as [|q old IH]; intros d ts i l ts' HI H; cbn [length readMany rdPoints2] in *.
  - injection H as <- <-. exists [], i. auto.
  - apply bind_ok in H as ([a t1] & E1 & H). apply bind_ok in H as ([l1 t2] & E2 & H). cbn [fst snd] in *. injection H as <- <-.
    unfold readPoint in E1. apply bind_ok in E1 as ([x u1] & X1 & E1). apply bind_ok in E1 as ([y u2] & X2 & E1).
    apply bind_ok in E1 as ([z u3] & X3 & E1). cbn [fst snd] in *. injection E1 as <- <-.
    destruct (cutC K _ _ _ (fst q) _ _ _ _ HI X1) as [(i1 & -> & A1)|(x' & i1 & -> & A1)]; cbn [bind fst snd].
    + destruct (cutC K _ _ _ (snd q) _ _ _ _ A1 X2) as [(i2 & -> & A2)|(x' & i2 & -> & A2)]; cbn [bind fst snd].
      * destruct (cutC K _ _ _ d _ _ _ _ A2 X3) as [(i3 & -> & A3)|(x' & i3 & -> & A3)]; cbn [bind fst snd].
        -- destruct (IH z _ _ _ _ A3 E2) as (l' & i4 & -> & B). cbn [bind fst snd]. eexists _, _. split; [reflexivity|exact B].
        -- destruct (out_points2 old x' i3 A3) as (l' & i4 & -> & B). cbn [bind fst snd]. eauto.
      * rewrite outC by exact A2. cbn [bind fst snd]. destruct (out_points2 old d (mkI (chars i2) true) (Out_failed _)) as (l' & i4 & -> & B). cbn [bind fst snd]. eauto.
    + rewrite outC by exact A1. cbn [bind fst snd]. rewrite outC by apply Out_failed. cbn [bind fst snd chars].
      destruct (out_points2 old d (mkI (chars i1) true) (Out_failed _)) as (l' & i4 & -> & B). cbn [bind fst snd]. eauto.
Qed.
Lemma points2_cut vs old d w q y : length old = length vs -> all_space w = true -> q ++ y = flat_map (putPoint2 K) vs ++ [nl] ->
  exists l i, rdPoints2 o d old (mkI (w ++ q) false) = Ok (l, i) /\ Out i.
Proof.
  intros L Hw E. assert (Sh : fshown K (fun c => c) (ptok2 vs ++ []) ((w ++ q) ++ y)).
  { rewrite <- app_assoc, E. apply shown_ws; [exact Hw|]. apply sh_points2. apply fs_space; [reflexivity|constructor]. }
  assert (RM : readMany readPoint (length old) (ptok2 vs ++ []) = Ok (map (fun p => (g (fst p), g (snd p), zero)) vs, [])).
  { rewrite L. replace (ptok2 vs) with (ptok3 (map (fun p => (g (fst p), g (snd p), zero)) vs)).
    - rewrite <- (map_length (fun p => (g (fst p), g (snd p), zero)) vs). apply readMany_points.
    - unfold ptok3, ptok2. clear. induction vs as [|p vs IH]; [reflexivity|]. cbn [map flat_map fst snd]. rewrite IH. reflexivity. }
  destruct (cut_points2 (w ++ q) y old d (ptok2 vs ++ []) (mkI (w ++ q) false) _ _ ltac:(split; [reflexivity|split; [exact Sh|exists []; reflexivity]]) RM) as (l & i & R & [B|B]); eauto.
  exists l, i. split; [exact R|]. eapply InStep_nil_out; exact B.
Qed.
(** * Rows *)
Lemma sh_join h l : forall ts s, (forall n, In n l -> n < 2 ^ 64) -> fshown K h ts s -> fshown K h (map (fun x => Tn x) l ++ ts) (join l ++ nl :: s).
Proof.
  induction l as [|n l IH]; intros ts s H Hs.
  - apply fs_space; [reflexivity|exact Hs].
  - destruct l as [|n' l].
    + cbn [join map app]. apply fs_n; [apply H; left; reflexivity|reflexivity|]. apply fs_space; [reflexivity|exact Hs].
    + change (join (n :: n' :: l)) with (putN n ++ [blank] ++ join (n' :: l)). repeat (rewrite <- !app_assoc; cbn [app]).
      change (map (fun x => Tn x) (n :: n' :: l) ++ ts) with (Tn n :: (map (fun x => @Tn C x) (n' :: l) ++ ts)).
      apply fs_n; [apply H; left; reflexivity|reflexivity|]. apply fs_space; [reflexivity|]. apply IH; [|exact Hs]. intros k Hk. apply H. right. exact Hk.
Qed.
Lemma sh_row h l ts s : small l -> fshown K h ts s -> fshown K h (counted l ++ ts) (putRow l ++ s).
Proof.
  intros [L H] Hs. unfold counted, num, putRow, count. repeat (rewrite <- !app_assoc; cbn [app]). apply fs_n; [exact L|reflexivity|]. apply fs_space; [reflexivity|].
  apply sh_join; assumption.
Qed.
Lemma xRow_cut l w q y : small l -> all_space w = true -> q ++ y = putRow l ->
  xRow o (mkI (w ++ q) false) = UB \/ exists l' i, xRow o (mkI (w ++ q) false) = Ok (l', i) /\ Out i.
Proof.
  intros Sl Hw E. set (h := fun c : C => c).
  assert (HI : InStep K h (w ++ q) y (counted l ++ []) (mkI (w ++ q) false)).
  { split; [reflexivity|]. split; [|exists []; reflexivity]. cbn [chars]. rewrite <- app_assoc, E. apply shown_ws; [exact Hw|].
    rewrite <- (app_nil_r (putRow l)). apply sh_row; [exact Sl|constructor]. }
  unfold counted, num in HI. rewrite app_nil_r in HI. unfold xRow.
  destruct (cutN K h _ _ None _ _ (N.of_nat (length l)) (map (fun x => Tn x) l) HI eq_refl) as [(i1 & -> & A)|[(_ & ->)|(n' & i1 & -> & A & _)]]; cbn [bind fst snd]; [right|left; reflexivity|right].
  - rewrite Nat2N.id. destruct (cut_row K h (w ++ q) y (length l) _ i1 l [] (After_InStep _ _ _ _ _ _ A)) as (l' & i2 & R & B).
    { pose proof (@readMany_nums C l []) as RM. rewrite app_nil_r in RM. exact RM. }
    exists l', i2. split; [exact R|]. destruct B as [[_ B]|B]; [apply (InStep_nil_out _ _ _ _ B)|exact B].
  - destruct (out_row K (N.to_nat n') i1 A) as (l' & i2 & R & B). eauto.
Qed.
Lemma rdRow_join l : forall w, (forall n, In n l -> n < 2 ^ 64) -> all_space w = true -> exists w', all_space w' = true /\ forall r,
  rdRow o (length l) (mkI (w ++ join l ++ nl :: r) false) = Ok (l, mkI (w' ++ nl :: r) false).
Proof.
  induction l as [|n l IH]; intros w H Hw; cbn [length rdRow].
  - exists w. auto.
  - assert (Hn : n < 2 ^ 64) by (apply H; left; reflexivity). assert (Hl : forall k, In k l -> k < 2 ^ 64) by (intros k Hk; apply H; right; exact Hk).
    destruct l as [|n' l].
    + exists []. split; [reflexivity|]. intros r. cbn [join]. rewrite rdN_putN by (assumption || reflexivity). reflexivity.
    + destruct (IH [blank] Hl eq_refl) as (w' & Hw' & E). exists w'. split; [exact Hw'|]. intros r. specialize (E r).
      change (join (n :: n' :: l)) with (putN n ++ [blank] ++ join (n' :: l)). repeat (rewrite <- !app_assoc; cbn [app]).
      rewrite rdN_putN by (assumption || reflexivity). cbn [bind fst snd]. change (blank :: join (n' :: l) ++ nl :: r) with ([blank] ++ join (n' :: l) ++ nl :: r).
      rewrite E. reflexivity.
Qed.
Lemma xRow_put l w : small l -> all_space w = true -> exists w', all_space w' = true /\ forall r, xRow o (mkI (w ++ putRow l ++ r) false) = Ok (l, mkI (w' ++ r) false).
Proof.
  intros [L H] Hw. destruct (rdRow_join l [blank] H eq_refl) as (w' & Hw' & E).
  exists (w' ++ [nl]). split; [rewrite all_space_app, Hw'; reflexivity|]. intros r.
  unfold xRow, putRow, count. repeat (rewrite <- !app_assoc; cbn [app]). rewrite rdN_putN by (assumption || reflexivity). cbn [bind fst snd].
  rewrite Nat2N.id. change (blank :: join l ++ nl :: r) with ([blank] ++ join l ++ nl :: r). rewrite E. reflexivity.
Qed.
Lemma xRow_out i : Out i -> xRow o i = UB.
Proof. intros H. unfold xRow. rewrite outN by exact H. reflexivity. Qed.
Lemma cells2_out b old c F em i : Out i -> xCells2Loop o (b :: old) c F em i = UB.
Proof. intros H. cbn [xCells2Loop]. rewrite xRow_out by exact H. reflexivity. Qed.
Lemma cells3_out reserve b old c e eem F em i : Out i -> xCells3Loop o reserve (b :: old) c e eem F em i = UB.
Proof. intros H. cbn [xCells3Loop]. rewrite xRow_out by exact H. reflexivity. Qed.
Lemma row_split rs (q y : text) r0 : q ++ y = flat_map putRow (r0 :: rs) ->
  (exists q', q = putRow r0 ++ q' /\ q' ++ y = flat_map putRow rs) \/ (exists y', q ++ y' = putRow r0).
Proof.
  cbn [flat_map]. intros E. destruct (cut_split q y [] (putRow r0) _ E) as [(c' & -> & ->)|(y' & _ & E')].
  - left. exists c'. auto.
  - right. exists y'. exact E'.
Qed.
Lemma cells2_cut rs : forall old c F em w q y, (length rs < length old)%nat -> all_space w = true -> q ++ y = flat_map putRow rs -> (forall l, In l rs -> small l) ->
  forall res, xCells2Loop o old c F em (mkI (w ++ q) false) <> Ok res.
Proof.
  induction rs as [|r0 rs IH]; intros [|b old] c F em w q y L Hw E HS res; cbn [length] in L; try lia.
  - apply app_eq_nil in E as [-> _]. rewrite app_nil_r, cells2_out by (apply Out_space; exact Hw). discriminate.
  - assert (S0 : small r0) by (apply HS; left; reflexivity). cbn [xCells2Loop]. destruct (row_split _ _ _ _ E) as [(q' & -> & E')|(y' & E')].
    + destruct (xRow_put r0 w S0 Hw) as (w' & Hw' & R). rewrite (R q'). cbn [bind fst snd]. intros H. apply bind_ok in H as ([[b1 F1] em1] & _ & H).
      apply bind_ok in H as ([[bs F2] s2] & H & _). revert H. apply (IH old _ _ _ w' q' y); [lia|exact Hw'|exact E'|]. intros l Hl. apply HS. right. exact Hl.
    + destruct (xRow_cut r0 w q y' S0 Hw E') as [R|(l' & i & R & HO)]; rewrite R; [discriminate|]. cbn [bind fst snd]. intros H.
      apply bind_ok in H as ([[b1 F1] em1] & _ & H). destruct old as [|b' old]; [cbn [length] in L; lia|]. rewrite cells2_out in H by exact HO. discriminate H.
Qed.
Lemma cells3_cut reserve rs : forall old c e eem F em w q y, (length rs < length old)%nat -> all_space w = true -> q ++ y = flat_map putRow rs -> (forall l, In l rs -> small l) ->
  forall res, xCells3Loop o reserve old c e eem F em (mkI (w ++ q) false) <> Ok res.
Proof.
  induction rs as [|r0 rs IH]; intros [|b old] c e eem F em w q y L Hw E HS res; cbn [length] in L; try lia.
  - apply app_eq_nil in E as [-> _]. rewrite app_nil_r, cells3_out by (apply Out_space; exact Hw). discriminate.
  - assert (S0 : small r0) by (apply HS; left; reflexivity). cbn [xCells3Loop]. destruct (row_split _ _ _ _ E) as [(q' & -> & E')|(y' & E')].
    + destruct (xRow_put r0 w S0 Hw) as (w' & Hw' & R). rewrite (R q'). cbn [bind fst snd]. intros H. destruct (shape (N.of_nat (length r0))) as [[eo fo]|]; [|discriminate H].
      apply bind_ok in H as ([[x1 x2] x3] & _ & H). apply bind_ok in H as (it & _ & H). apply bind_ok in H as ([[b1 F1] em1] & _ & H).
      apply bind_ok in H as ([[[bs e2] F2] s2] & H & _). revert H. apply (IH old _ _ _ _ _ w' q' y); [lia|exact Hw'|exact E'|]. intros l Hl. apply HS. right. exact Hl.
    + destruct (xRow_cut r0 w q y' S0 Hw E') as [R|(l' & i & R & HO)]; rewrite R; [discriminate|]. cbn [bind fst snd]. intros H.
      destruct (shape (N.of_nat (length l'))) as [[eo fo]|]; [|discriminate H].
      apply bind_ok in H as ([[x1 x2] x3] & _ & H). apply bind_ok in H as (it & _ & H). apply bind_ok in H as ([[b1 F1] em1] & _ & H).
      destruct old as [|b' old]; [cbn [length] in L; lia|]. rewrite cells3_out in H by exact HO. discriminate H.
Qed.
(** All rows present: what follows does not matter. *)
Lemma cells2_app rows : forall old c F em w r bs F' s, length old = length rows -> all_space w = true -> (forall l, In l rows -> small l) ->
  xCells2Loop o old c F em (mkI (w ++ flat_map putRow rows ++ r) false) = Ok (bs, F', s) ->
  exists w', all_space w' = true /\ forall r', xCells2Loop o old c F em (mkI (w ++ flat_map putRow rows ++ r') false) = Ok (bs, F', mkI (w' ++ r') false).
Proof.
  induction rows as [|r0 rows IH]; intros [|b old] c F em w r bs F' s L Hw HS H; try discriminate L.
  - injection H as <- <- <-. exists w. auto.
  - assert (S0 : small r0) by (apply HS; left; reflexivity). destruct (xRow_put r0 w S0 Hw) as (w1 & Hw1 & R).
    cbn [xCells2Loop flat_map] in H. rewrite <- app_assoc, R in H. cbn [bind fst snd] in H. apply bind_ok in H as ([[b1 F1] em1] & EB & H).
    apply bind_ok in H as ([[bs2 F2] s2] & H & E). injection E as <- <- <-.
    destruct (IH old _ _ _ w1 r bs2 F2 s2 ltac:(injection L; auto) Hw1 ltac:(intros l Hl; apply HS; right; exact Hl) H) as (w' & Hw' & E).
    exists w'. split; [exact Hw'|]. intros r'. cbn [xCells2Loop flat_map]. rewrite <- app_assoc, R. cbn [bind fst snd]. rewrite EB. cbn [bind]. rewrite E. reflexivity.
Qed.
Lemma cells3_app reserve rows : forall old c e eem F em w r bs e' F' s, length old = length rows -> all_space w = true -> (forall l, In l rows -> small l) ->
  xCells3Loop o reserve old c e eem F em (mkI (w ++ flat_map putRow rows ++ r) false) = Ok (bs, e', F', s) ->
  exists w', all_space w' = true /\ forall r', xCells3Loop o reserve old c e eem F em (mkI (w ++ flat_map putRow rows ++ r') false) = Ok (bs, e', F', mkI (w' ++ r') false).
Proof.
  induction rows as [|r0 rows IH]; intros [|b old] c e eem F em w r bs e' F' s L Hw HS H; try discriminate L.
  - injection H as <- <- <- <-. exists w. auto.
  - assert (S0 : small r0) by (apply HS; left; reflexivity). destruct (xRow_put r0 w S0 Hw) as (w1 & Hw1 & R).
    cbn [xCells3Loop flat_map] in H. rewrite <- app_assoc, R in H. cbn [bind fst snd] in H. destruct (shape (N.of_nat (length r0))) as [[eo fo]|] eqn:Es; [|discriminate H].
    apply bind_ok in H as ([[x1 x2] x3] & EA & H). apply bind_ok in H as (it & EI & H). apply bind_ok in H as ([[b1 F1] em1] & EB & H).
    apply bind_ok in H as ([[[bs2 e2] F2] s2] & H & E). injection E as <- <- <- <-.
    destruct (IH old _ _ _ _ _ w1 r bs2 e2 F2 s2 ltac:(injection L; auto) Hw1 ltac:(intros l Hl; apply HS; right; exact Hl) H) as (w' & Hw' & E).
    exists w'. split; [exact Hw'|]. intros r'. cbn [xCells3Loop flat_map]. rewrite <- app_assoc, R. cbn [bind fst snd]. rewrite Es, EA. cbn [bind]. rewrite EI. cbn [bind].
    rewrite EB. cbn [bind]. rewrite E. reflexivity.
Qed.
(** The line with the numbers. *)
Lemma cells_line_cut total rs q y n : (0 < n < 2 ^ 64) -> total < 2 ^ 128 ->
  q ++ y = blank :: putN n ++ blank :: putN total ++ nl :: flat_map putRow rs ->
  rdN o None (mkI q false) = UB \/
  (exists n' i, rdN o None (mkI q false) = Ok (n', i) /\ n' <> 0 /\ Out (ignore 50 i)) \/
  (exists q' i, rdN o None (mkI q false) = Ok (n, i) /\ ignore 50 i = mkI q' false /\ q' ++ y = flat_map putRow rs).
Proof.
  intros [Hn0 Hn] Ht E. destruct (cut_split q y [blank] (putN n) _ E) as [(c' & -> & E')|(y' & Hy' & E')].
  - assert (Hs : stop c' = true) by (apply (stop_cut c' y); rewrite <- E'; reflexivity). right. change ([blank] ++ putN n ++ c') with (blank :: putN n ++ c'). rewrite (rdN_blank K None n c') by assumption.
    destruct (cut_split c' y (blank :: putN total) [nl] (flat_map putRow rs)) as [(q' & -> & E2)|(y2 & _ & E2)].
    { rewrite <- E'. repeat (rewrite <- !app_assoc; cbn [app]). reflexivity. }
    + right. exists q', (mkI (blank :: putN total ++ nl :: q') false). split; [reflexivity|]. split; [|symmetry; exact E2].
      unfold ignore. cbn [failed chars]. rewrite total_line by exact Ht. reflexivity.
    + left. exists n, (mkI c' false). split; [reflexivity|]. split; [lia|]. unfold ignore. cbn [failed chars].
      rewrite (drop_end c' 50 (blank :: putN total)); [apply Out_empty| | |eauto].
      * intros [K0|K0]; [discriminate K0|]. exact (no_nl_spaceless _ (putN_spaceless total) K0).
      * cbn [length]. pose proof (putN_small total Ht). lia.
  - destruct (getN_prefix n [blank] q y' eq_refl E' Hy') as [G|(v & i & G & Oi & NZ & _)].
    + left. cbn [rdN charOps]. rewrite G. reflexivity.
    + right. left. exists v, i. cbn [rdN charOps]. rewrite G. split; [reflexivity|]. split; [exact NZ|]. apply Out_ignore, Oi.
Qed.
(** * Types *)
Lemma types_any conv n : forall i types s, (N.to_nat i + n <= length types)%nat -> exists types' s', xTypesLoop o conv n i types s = Ok (types', s') /\
  length types' = length types /\ firstn (N.to_nat i) types' = firstn (N.to_nat i) types.
Proof.
  induction n as [|n IH]; intros i types s L; cbn [xTypesLoop]; [eauto|].
  assert (exists z s1, rdI o s = Ok (z, s1)) as (z & s1 & ->) by (cbn [rdI charOps]; destruct (getInt s) as [[z|] s1]; eauto). cbn [bind fst snd].
  assert (V : exists t1, match convZ conv z with Some e => vset types i e | None => Ok types end = Ok t1 /\ length t1 = length types /\ firstn (N.to_nat i) t1 = firstn (N.to_nat i) types).
  { destruct (convZ conv z) as [e|]; [|eauto]. unfold vset. destruct (N.ltb_spec i (N.of_nat (length types))); [|lia]. eexists. split; [reflexivity|].
    clear. generalize (N.to_nat i). intros k. revert types. induction k as [|k IH]; intros [|t types]; cbn [upd length firstn]; auto.
    destruct (IH types) as [A B]. rewrite A, B. auto. }
  destruct V as (t1 & -> & L1 & F1). cbn [bind]. destruct (IH (i + 1) t1 s1 ltac:(lia)) as (t2 & s2 & -> & L2 & F2). exists t2, s2.
  split; [reflexivity|]. split; [congruence|]. rewrite <- F1.
  replace (N.to_nat (i + 1)) with (S (N.to_nat i)) in F2 by lia.
  clear - F2. revert t1 F2. generalize (N.to_nat i). intros k. revert t2. induction k as [|k IH]; intros t2 t1 F; [reflexivity|].
  destruct t2 as [|a t2], t1 as [|b t1]; try discriminate F; [reflexivity|]. cbn [firstn] in *. injection F as -> F. f_equal. apply IH. exact F.
Qed.
End CutVTK.

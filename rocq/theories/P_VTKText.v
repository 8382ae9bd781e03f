(** VTK files as characters. *)
From Coq Require Import String Ascii QArith Permutation.
From Verif Require Import Base P_Base M_Conn S_Conn M_Mesh M_Connections S_Mesh M_Text M_Print M_Stream P_Stream M_FPMA M_VTK M_VTKWrite M_FileText S_FPMA S_VTK P_VTK P_FileText P_FPMAText.
Local Open Scope list_scope.
Local Open Scope N_scope.

(** * ignore *)
Definition no_nl (t : text) : Prop := ~ In nl t.
Lemma drop_line_text t : forall n r, no_nl t -> (length t < n)%nat -> drop_line n (t ++ nl :: r) = r.
Proof.
  induction t as [|c t IH]; intros [|n] r H L; cbn [length] in L; try lia; cbn [app drop_line].
  - reflexivity.
  - destruct (Ascii.eqb_spec c nl) as [->|_]; [exfalso; apply H; left; reflexivity|]. apply IH; [|lia]. intros K. apply H. right. exact K.
Qed.
Lemma nl_space : is_space nl = true. Proof. reflexivity. Qed.
Lemma no_nl_spaceless t : forallb (fun c => negb (is_space c)) t = true -> no_nl t.
Proof. intros H K. rewrite forallb_forall in H. specialize (H _ K). rewrite nl_space in H. discriminate H. Qed.
Lemma putN_spaceless n : forallb (fun c => negb (is_space c)) (putN n) = true.
Proof.
  apply forallb_forall. intros c Hc. pose proof (putN_digits n) as D. rewrite forallb_forall in D. rewrite (digit_nonspace c) by (apply D; exact Hc). reflexivity.
Qed.

Lemma putN_small n : n < 2 ^ 128 -> (length (putN n) <= 40)%nat.
Proof.
  intros H. destruct (N.eq_dec n 0) as [->|Hn]; [vm_compute; lia|]. destruct (putN_length n ltac:(lia)) as [[A _] _].
  assert (N.of_nat (length (putN n)) - 1 < 40); [|lia].
  apply (N.pow_lt_mono_r_iff 10); [lia|]. eapply N.le_lt_trans; [exact A|]. eapply N.lt_trans; [exact H|reflexivity].
Qed.

Section VTKText.
Context {C : Type}.
Variable K : fp C.
Local Notation g := (reread K).
Local Notation o := (charOps K).
Variable T0 : text.
Local Notation shown := (vshown K g T0).
Lemma vh_n n c ts s : n < 2 ^ 64 -> is_space c = true -> shown ts (c :: s) -> shown (Vn n :: ts) (putN n ++ c :: s).
Proof. intros Hn Hc H. apply vs_n; [exact Hn|exact Hc|exact H]. Qed.
Lemma vh_c x c ts s : is_space c = true -> shown ts (c :: s) -> shown (Vc x :: ts) (putC K x ++ c :: s).
Proof. intros Hc H. apply (vs_c K g T0 x _ (round6 (val K x))); [reflexivity|apply numtext_putC|exact Hc|exact H]. Qed.
Definition ptoks (l : list (C * C * C)) : list (vtok C) := flat_map (fun p => [Vc (fst (fst p)); Vc (snd (fst p)); Vc (snd p); Vnl]) l.
Ltac flat := repeat (rewrite <- !app_assoc; cbn [app]).
Lemma vh_points3 l ts s : shown ts s -> shown (ptoks l ++ ts) (flat_map (putPoint3 K) l ++ s).
Proof.
  intros H. induction l as [|[[x y] z] l IH]; [exact H|]. unfold ptoks. cbn [flat_map]. unfold putPoint3 at 1. cbn [fst snd app]. flat.
  apply vh_c; [reflexivity|]. apply vs_blank. apply vh_c; [reflexivity|]. apply vs_blank. apply vh_c; [reflexivity|]. apply vs_nl. exact IH.
Qed.
(** The number 0 exists in the coordinate type. *)
Definition zero_exact : Prop := (val K (near K 0) == 0)%Q.
Lemma reread_zero : zero_exact -> g (near K 0) = near K 0.
Proof.
  intros Z. unfold reread. f_equal. unfold round6. destruct (Qcompare_spec (val K (near K 0)) 0) as [E|L|G]; [reflexivity| |].
  - exfalso. exact (Qlt_not_eq _ _ L Z).
  - exfalso. apply (Qlt_not_eq _ _ G). symmetry. exact Z.
Qed.
Lemma numtext_zero : numtext (str "0.0") 0.
Proof.
  intros w r Hw Hr. unfold getDec. rewrite sentry_app; [|exact Hw|discriminate|reflexivity].
  assert (S1 : sign (str "0.0" ++ r) = (false, str "0.0" ++ r)) by reflexivity. rewrite S1. clear S1.
  unfold getMantissa. change (str "0.0" ++ r) with ("0"%char :: "."%char :: "0"%char :: r). cbn [span is_digit digit nat_of].
  assert (P : span is_digit ("0"%char :: r) = (["0"%char], r)).
  { cbn [span]. change (is_digit "0") with true. cbv iota. destruct r as [|c r]; [reflexivity|]. cbn [span].
    pose proof (stop_digit _ Hr) as Hd. cbn in Hd. rewrite Hd. reflexivity. }
  change (is_digit "0") with true. change (is_digit ".") with false. cbv iota. change (("." =? ".")%char) with true. cbv iota.
  rewrite P. cbn [app]. rewrite (getExponent_none r Hr). reflexivity.
Qed.
Lemma vh_points2 l ts s : zero_exact -> shown ts s -> shown (ptoks (map (fun p => (fst p, snd p, near K 0)) l) ++ ts) (flat_map (putPoint2 K) l ++ s).
Proof.
  intros Z H. induction l as [|[x y] l IH]; [exact H|]. unfold ptoks. cbn [map flat_map]. unfold putPoint2 at 1. cbn [fst snd app]. flat.
  apply vh_c; [reflexivity|]. apply vs_blank.
  change (str " 0.0" ++ nl :: flat_map (putPoint2 K) l ++ s) with (blank :: str "0.0" ++ nl :: flat_map (putPoint2 K) l ++ s).
  apply vh_c; [reflexivity|]. apply vs_blank. apply (vs_c K g T0 (near K 0) _ 0); [apply reread_zero; exact Z|exact numtext_zero|reflexivity|]. apply vs_nl. exact IH.
Qed.
Lemma vh_join l : forall ts s, (forall n, In n l -> n < 2 ^ 64) -> shown ts s -> shown (map (fun x => Vn x) l ++ Vnl :: ts) (join l ++ nl :: s).
Proof.
  induction l as [|n l IH]; intros ts s H Hs.
  - apply vs_nl. exact Hs.
  - destruct l as [|n' l].
    + cbn [join map app]. apply vh_n; [apply H; left; reflexivity|reflexivity|]. apply vs_nl. exact Hs.
    + change (join (n :: n' :: l)) with (putN n ++ [blank] ++ join (n' :: l)). cbn [map app]. flat.
      apply vh_n; [apply H; left; reflexivity|reflexivity|]. apply vs_blank. apply (IH ts s); [|exact Hs]. intros k Hk. apply H. right. exact Hk.
Qed.
Lemma vh_rows ls ts s : (forall l, In l ls -> small l) -> shown ts s -> shown (flat_map row ls ++ ts) (flat_map putRow ls ++ s).
Proof.
  intros H Hs. induction ls as [|l ls IH]; [exact Hs|]. cbn [flat_map]. unfold row at 1, putRow at 1, count, vnum. cbn [app]. flat.
  destruct (H l (or_introl eq_refl)) as [L HL]. apply vh_n; [exact L|reflexivity|]. apply vs_blank. apply vh_join; [exact HL|].
  apply IH. intros k Hk. apply H. right. exact Hk.
Qed.
(** * The cells loops use up the rows *)
Lemma cells2_rest todo : forall old c F em k rest bs F' ts', length old = length todo ->
  cells2_loop (C := C) old c F em (nls k ++ flat_map row todo ++ rest) = Ok (bs, F', ts') -> exists k', ts' = nls k' ++ rest /\
  forall rest', cells2_loop (C := C) old c F em (nls k ++ flat_map row todo ++ rest') = Ok (bs, F', nls k' ++ rest').
Proof.
  induction todo as [|r todo IH]; intros [|b old] c F em k rest bs F' ts' L H; try discriminate L.
  - injection H as <- <- <-. exists k. auto.
  - cbn [flat_map cells2_loop] in H. rewrite <- app_assoc, vreadRow_row in H. cbn [bind fst snd] in H.
    apply bind_ok in H as ([[b1 F1] em1] & E1 & H). apply bind_ok in H as ([[bs2 F2] ts2] & E & H). injection H as <- <- <-.
    destruct (IH old _ F1 em1 1%nat _ _ _ _ ltac:(injection L; auto) E) as (k' & E2 & E3). exists k'. split; [exact E2|].
    intros rest'. cbn [flat_map cells2_loop]. rewrite <- app_assoc, vreadRow_row. cbn [bind fst snd]. rewrite E1. cbn [bind]. specialize (E3 rest').
    change (nls 1 ++ flat_map row todo ++ rest') with (Vnl :: flat_map row todo ++ rest') in E3. rewrite E3. reflexivity.
Qed.
Lemma cells3_rest reserve todo : forall old c e eem F em k rest bs e' F' ts', length old = length todo ->
  cells3_loop (C := C) reserve old c e eem F em (nls k ++ flat_map row todo ++ rest) = Ok (bs, e', F', ts') -> exists k', ts' = nls k' ++ rest /\
  forall rest', cells3_loop (C := C) reserve old c e eem F em (nls k ++ flat_map row todo ++ rest') = Ok (bs, e', F', nls k' ++ rest').
Proof.
  induction todo as [|r todo IH]; intros [|b old] c e eem F em k rest bs e' F' ts' L H; try discriminate L.
  - injection H as <- <- <- <-. exists k. auto.
  - cbn [flat_map cells3_loop] in H. rewrite <- app_assoc, vreadRow_row in H. cbn [bind fst snd] in H.
    destruct (shape (N.of_nat (length r))) as [[eo fo]|] eqn:Es; [|discriminate H].
    apply bind_ok in H as ([[b1 F1] em1] & E1 & H). apply bind_ok in H as (it & E2 & H). apply bind_ok in H as ([[b2 G1] em2] & E3 & H).
    apply bind_ok in H as ([[[bs2 e2] F2] ts2] & E & H). injection H as <- <- <- <-.
    destruct (IH old _ _ _ _ _ 1%nat _ _ _ _ _ ltac:(injection L; auto) E) as (k' & E4 & E5). exists k'. split; [exact E4|].
    intros rest'. cbn [flat_map cells3_loop]. rewrite <- app_assoc, vreadRow_row. cbn [bind fst snd]. rewrite Es, E1. cbn [bind]. rewrite E2. cbn [bind].
    rewrite E3. cbn [bind]. specialize (E5 rest').
    change (nls 1 ++ flat_map row todo ++ rest') with (Vnl :: flat_map row todo ++ rest') in E5. rewrite E5. reflexivity.
Qed.
End VTKText.

(** * Sections *)
Section Sections.
Context {C : Type}.
Variable K : fp C.
Local Notation g := (reread K).
Local Notation o := (charOps K).
Local Notation zero := (near K 0).
Lemma rdN_putN d n w r : n < 2 ^ 64 -> all_space w = true -> stop r = true -> rdN o d (mkI (w ++ putN n ++ r) false) = Ok (n, mkI r false).
Proof. intros Hn Hw Hr. cbn [rdN charOps]. rewrite getN_putN by assumption. reflexivity. Qed.
Lemma rdN_blank d n r : n < 2 ^ 64 -> stop r = true -> rdN o d (mkI (blank :: putN n ++ r) false) = Ok (n, mkI r false).
Proof. intros Hn Hr. apply (rdN_putN d n [blank] r); auto. Qed.
Lemma rdW_word b x w r : all_space w = true -> stop r = true -> x <> [] -> forallb (fun c => negb (is_space c)) x = true ->
  rdW o b (mkI (w ++ x ++ r) false) = (x, mkI r false).
Proof. intros. cbn [rdW charOps]. rewrite getWord_app by assumption. reflexivity. Qed.
Lemma rdW_word0 b x r : stop r = true -> x <> [] -> forallb (fun c => negb (is_space c)) x = true -> rdW o b (mkI (x ++ r) false) = (x, mkI r false).
Proof. intros. apply (rdW_word b x [] r); auto. Qed.
Lemma rdW_word1 b x c r : is_space c = true -> stop r = true -> x <> [] -> forallb (fun c => negb (is_space c)) x = true -> rdW o b (mkI (c :: x ++ r) false) = (x, mkI r false).
Proof. intros Hc. intros. apply (rdW_word b x [c] r); auto. cbn. rewrite Hc. reflexivity. Qed.
Lemma vresize_nil {A} n (d : A) : vresize n d [] = repeat d n.
Proof. unfold vresize. rewrite firstn_nil. cbn [length app]. rewrite Nat.sub_0_r. reflexivity. Qed.
Lemma skip_nls0 k : skip_nl (@nls C k) = [].
Proof. rewrite <- (app_nil_r (nls k)), skip_nls. reflexivity. Qed.
Lemma isV_end T0 k i : isV K g T0 (nls k) i -> exists w, all_space w = true /\ i = mkI (w ++ T0) false.
Proof.
  intros [H F]. destruct (vshown_nls K g T0 _ _ H (skip_nls0 k)) as (w & Hw & E). exists w. split; [exact Hw|]. destruct i. cbn in *. congruence.
Qed.
Lemma nls_snoc k : nls k ++ [@Vnl C] = nls (k + 1).
Proof. unfold nls. rewrite repeat_app. reflexivity. Qed.

Lemma read_points3 (vs : list (C * C * C)) T0 : N.of_nat (length vs) < 2 ^ 64 -> exists w, all_space w = true /\
  xPoints3 o zero (mkI (blank :: count vs ++ str " double" ++ nl :: flat_map (putPoint3 K) vs ++ nl :: T0) false) [] = Ok (map (map3 g) vs, mkI (w ++ T0) false).
Proof.
  intros L. unfold xPoints3, count. rewrite rdN_blank by (assumption || reflexivity). cbn [bind fst snd ign charOps]. unfold ignore at 1. cbn [failed chars].
  rewrite drop_line_text by (try (cbn; lia); intros H; cbn in H; intuition discriminate). rewrite vresize_nil, Nat2N.id.
  destruct (vreadMany_points3 vs 0 [@Vnl C]) as (k' & E). cbn [nls repeat app] in E.
  rewrite <- (repeat_length (zero, zero, zero) (length vs)) in E at 1.
  destruct (vsim_points3 o (isV K g T0) g (isV_C K g T0) _ _ (mkI (flat_map (putPoint3 K) vs ++ nl :: T0) false) _ _ ltac:(split; [apply vh_points3, vs_nl, vs_nil|reflexivity]) E) as (s' & E' & H).
  rewrite nls_snoc in H. destruct (isV_end _ _ _ H) as (w & Hw & ->). exists w. split; [exact Hw|exact E'].
Qed.
Lemma read_points2 (vs : list (C * C)) T0 : zero_exact K -> N.of_nat (length vs) < 2 ^ 64 -> exists w, all_space w = true /\
  xPoints2 o zero (mkI (blank :: count vs ++ str " double" ++ nl :: flat_map (putPoint2 K) vs ++ nl :: T0) false) [] = Ok (map (map2 g) vs, mkI (w ++ T0) false).
Proof.
  intros Z L. unfold xPoints2, count. rewrite rdN_blank by (assumption || reflexivity). cbn [bind fst snd ign charOps]. unfold ignore at 1. cbn [failed chars].
  rewrite drop_line_text by (try (cbn; lia); intros H; cbn in H; intuition discriminate). rewrite vresize_nil, Nat2N.id.
  set (pts := map (fun p => (fst p, snd p, zero)) vs).
  destruct (vreadMany_points2 pts 0 [@Vnl C]) as (k' & E). cbn [nls repeat app] in E.
  assert (Lp : length pts = length (repeat (zero, zero) (length vs))) by (unfold pts; rewrite map_length, repeat_length; reflexivity).
  rewrite Lp in E. assert (Ep : map fst pts = vs).
  { unfold pts. rewrite map_map. cbn [fst]. rewrite (map_ext _ (fun p => p)) by (intros []; reflexivity). apply map_id. }
  rewrite Ep in E.
  destruct (vsim_points2 o (isV K g T0) g (isV_C K g T0) _ zero _ (mkI (flat_map (putPoint2 K) vs ++ nl :: T0) false) _ _ ltac:(split; [apply vh_points2; [exact Z|apply vs_nl, vs_nil]|reflexivity]) E) as (s' & E' & H).
  rewrite nls_snoc in H. destruct (isV_end _ _ _ H) as (w & Hw & ->). exists w. split; [exact Hw|exact E'].
Qed.
Lemma total_line n T : n < 2 ^ 128 -> drop_line 50 (blank :: putN n ++ nl :: T) = T.
Proof.
  intros H. apply (drop_line_text (blank :: putN n)).
  - intros [E|E]; [discriminate E|]. exact (no_nl_spaceless _ (putN_spaceless n) E).
  - cbn [length]. enough (length (putN n) <= 40)%nat by lia. apply putN_small. exact H.
Qed.
Lemma read_cells2 rows total T0 rest (m m' : Mesh (C * C)) ts' : (forall l, In l rows -> small l) -> N.of_nat (length rows) < 2 ^ 64 -> total < 2 ^ 128 ->
  loadCells2 (vnum rows :: Vn total :: Vnl :: flat_map row rows ++ Vnl :: rest) m = Ok (m', ts') -> m_cells m = [] ->
  (exists k, ts' = nls k ++ rest) /\ m_verts m' = m_verts m /\ exists w, all_space w = true /\
  forall vs, xCells2 o (mkI (blank :: count rows ++ blank :: putN total ++ nl :: flat_map putRow rows ++ nl :: T0) false)
    (mkMesh (m_dim m) vs (m_mid m) (m_faces m) (m_cells m) (m_bcells m)) =
    Ok (mkMesh (m_dim m') vs (m_mid m') (m_faces m') (m_cells m') (m_bcells m'), mkI (w ++ T0) false).
Proof.
  intros HS HL HT H HC. unfold loadCells2, vreadN, vnum in H. cbn [skip_nl bind fst snd ignore_line] in H.
  apply bind_ok in H as ([[bs F] t1] & E & H). injection H as <- <-. rewrite HC, vresize_nil, Nat2N.id in E.
  change (flat_map row rows ++ Vnl :: rest) with (nls 0 ++ flat_map row rows ++ Vnl :: rest) in E.
  destruct (cells2_rest rows _ _ _ _ _ _ _ _ _ (repeat_length _ _) E) as (k & -> & E2). split; [|split; [reflexivity|]].
  { exists (k + 1)%nat. rewrite <- nls_snoc, <- app_assoc. reflexivity. }
  specialize (E2 [Vnl]). cbn [nls repeat app] in E2.
  destruct (vsim_cells2 o (isV K g T0) (isV_N K g T0) _ _ _ _ _ (mkI (flat_map putRow rows ++ nl :: T0) false) _ _ _
    ltac:(split; [apply vh_rows; [exact HS|apply vs_nl, vs_nil]|reflexivity]) E2) as (s' & E' & HV).
  rewrite nls_snoc in HV. destruct (isV_end _ _ _ HV) as (w & Hw & ->). exists w. split; [exact Hw|]. intros vs.
  unfold xCells2, count. rewrite rdN_blank by (assumption || reflexivity). cbn [bind fst snd ign charOps m_cells m_faces m_dim m_mid m_verts m_bcells]. unfold ignore at 1. cbn [failed chars].
  rewrite total_line by exact HT. rewrite HC, vresize_nil, Nat2N.id, E'. reflexivity.
Qed.
Lemma read_cells3 reserve rows total T0 rest (m m' : Mesh (C * C * C)) ts' : (forall l, In l rows -> small l) -> N.of_nat (length rows) < 2 ^ 64 -> total < 2 ^ 128 ->
  loadCells3 reserve (vnum rows :: Vn total :: Vnl :: flat_map row rows ++ Vnl :: rest) m = Ok (m', ts') -> m_cells m = [] ->
  (exists k, ts' = nls k ++ rest) /\ m_verts m' = m_verts m /\ exists w, all_space w = true /\
  forall vs, xCells3 o reserve (mkI (blank :: count rows ++ blank :: putN total ++ nl :: flat_map putRow rows ++ nl :: T0) false)
    (mkMesh (m_dim m) vs (m_mid m) (m_faces m) (m_cells m) (m_bcells m)) =
    Ok (mkMesh (m_dim m') vs (m_mid m') (m_faces m') (m_cells m') (m_bcells m'), mkI (w ++ T0) false).
Proof.
  intros HS HL HT H HC. unfold loadCells3, vreadN, vnum in H. cbn [skip_nl bind fst snd ignore_line] in H.
  apply bind_ok in H as ([[[bs e] F] t1] & E & H). injection H as <- <-. rewrite HC, vresize_nil, Nat2N.id in E.
  change (flat_map row rows ++ Vnl :: rest) with (nls 0 ++ flat_map row rows ++ Vnl :: rest) in E.
  destruct (cells3_rest reserve rows _ _ _ _ _ _ _ _ _ _ _ _ (repeat_length _ _) E) as (k & -> & E2). split; [|split; [reflexivity|]].
  { exists (k + 1)%nat. rewrite <- nls_snoc, <- app_assoc. reflexivity. }
  specialize (E2 [Vnl]). cbn [nls repeat app] in E2.
  destruct (vsim_cells3 o (isV K g T0) (isV_N K g T0) reserve _ _ _ _ _ _ _ (mkI (flat_map putRow rows ++ nl :: T0) false) _ _ _ _
    ltac:(split; [apply vh_rows; [exact HS|apply vs_nl, vs_nil]|reflexivity]) E2) as (s' & E' & HV).
  rewrite nls_snoc in HV. destruct (isV_end _ _ _ HV) as (w & Hw & ->). exists w. split; [exact Hw|]. intros vs.
  unfold xCells3, count. rewrite rdN_blank by (assumption || reflexivity). cbn [bind fst snd ign charOps m_cells m_faces m_dim m_mid m_verts m_bcells]. unfold ignore at 1. cbn [failed chars].
  rewrite total_line by exact HT. rewrite HC, vresize_nil, Nat2N.id, E'. reflexivity.
Qed.
(** * Types *)
Lemma read_types_loop conv T0 rest codes : forall w k i types types' ts', all_space w = true -> (forall n, In n codes -> n < 2 ^ 31) -> 
  types_loop conv (length codes) i types (nls k ++ flat_map (fun t => [Vn t; @Vnl C]) codes ++ rest) = Ok (types', ts') ->
  exists s', xTypesLoop o conv (length codes) i types (mkI (w ++ flat_map (fun n => putN n ++ [nl]) codes ++ T0) false) = Ok (types', s').
Proof.
  induction codes as [|n codes IH]; intros w k i types types' ts' Hw HC H.
  - injection H as <- <-. cbn [length xTypesLoop]. eauto.
  - cbn [length types_loop flat_map app] in H. unfold vreadN at 1 in H. rewrite skip_nls in H. cbn [skip_nl bind fst snd] in H.
    apply bind_ok in H as (t1 & E1 & H). cbn [length xTypesLoop flat_map]. rewrite <- !app_assoc. cbn [app].
    assert (Hn : n < 2 ^ 31) by (apply HC; left; reflexivity).
    assert (E : rdI o (mkI (w ++ putN n ++ nl :: flat_map (fun n => putN n ++ [nl]) codes ++ T0) false) =
            Ok (Z.of_N n, mkI (nl :: flat_map (fun n => putN n ++ [nl]) codes ++ T0) false)).
    { cbn [rdI charOps]. rewrite getInt_putN by (exact Hn || exact Hw || reflexivity). reflexivity. }
    rewrite E. cbn [bind fst snd]. assert (EZ : convZ conv (Z.of_N n) = conv n).
    { unfold convZ. replace (Z.of_N n <? 0)%Z with false by lia. rewrite N2Z.id. reflexivity. }
    rewrite EZ, E1. cbn [bind]. apply (IH [nl] 1%nat (i + 1) t1 types' ts'); [reflexivity| |exact H]. intros x Hx. apply HC. right. exact Hx.
Qed.
Lemma read_types conv ncells old codes T0 rest types ts' : N.of_nat (length codes) < 2 ^ 64 -> (forall n, In n codes -> n < 2 ^ 31) ->
  loadCellTypes conv ncells old (vnum codes :: Vnl :: flat_map (fun t => [Vn t; @Vnl C]) codes ++ rest) = Ok (types, ts') ->
  exists s', xTypes o conv ncells old (mkI (blank :: count codes ++ nl :: flat_map (fun n => putN n ++ [nl]) codes ++ T0) false) = Ok (types, s').
Proof.
  intros HL HC H. unfold loadCellTypes, vreadN, vnum in H. cbn [skip_nl bind fst snd] in H. rewrite Nat2N.id in H.
  unfold xTypes, count. rewrite rdN_blank by (assumption || reflexivity). cbn [bind fst snd]. rewrite Nat2N.id.
  apply (read_types_loop conv T0 rest codes [nl] 1%nat _ _ _ _ eq_refl HC H).
Qed.
End Sections.

(** * The whole file *)
Section Whole.
Context {C : Type}.
Variable K : fp C.
Local Notation g := (reread K).
Local Notation o := (charOps K).
Local Notation zero := (near K 0).
(** Two free lines and the keywords. *)
Definition header (l1 l2 : text) (r : text) : text :=
  l1 ++ nl :: l2 ++ nl :: str "ASCII" ++ nl :: str "DATASET" ++ blank :: str "UNSTRUCTURED_GRID" ++ nl :: r.
Definition sections (rows : list (list N)) (codes : list N) : text :=
  cellsText (N.of_nat (length rows)) rows (countWritten rows) (N.of_nat (length codes)) (flat_map (fun n => putN n ++ [nl]) codes).
Definition body2 (vs : list (C * C)) rows codes : text :=
  str "POINTS " ++ count vs ++ str " double" ++ [nl] ++ flat_map (putPoint2 K) vs ++ [nl] ++ sections rows codes.
Definition body3 (vs : list (C * C * C)) rows codes : text :=
  str "POINTS " ++ count vs ++ str " double" ++ [nl] ++ flat_map (putPoint3 K) vs ++ [nl] ++ sections rows codes.
Definition free_line (l : text) : Prop := no_nl l /\ (length l < 1024)%nat.
Lemma header_read l1 l2 r : free_line l1 -> free_line l2 -> ign o 1024 (ign o 1024 (fileOf (header l1 l2 r))) =
  mkI (str "ASCII" ++ nl :: str "DATASET" ++ blank :: str "UNSTRUCTURED_GRID" ++ nl :: r) false.
Proof.
  intros [A1 B1] [A2 B2]. cbn [ign charOps]. unfold ignore, fileOf, header. cbn [failed chars].
  rewrite drop_line_text by assumption. rewrite drop_line_text by assumption. reflexivity.
Qed.
Record small_file (nv : nat) (rows : list (list N)) (codes : list N) : Prop := {
  sf_v : N.of_nat nv < 2 ^ 64;
  sf_r : N.of_nat (length rows) < 2 ^ 64;
  sf_rows : forall l, In l rows -> small l;
  sf_total : countWritten rows < 2 ^ 128;
  sf_t : N.of_nat (length codes) < 2 ^ 64;
  sf_codes : forall n, In n codes -> n < 2 ^ 31
}.
Lemma vreadW_nls k s rest : vreadW (C := C) (nls k ++ Vw s :: rest) = (Some s, rest). Proof. apply vreadW_word. Qed.
Lemma sections_cells rows codes T : sections rows codes ++ T = str "CELLS" ++ blank :: count rows ++ blank :: putN (countWritten rows) ++ nl ::
  flat_map putRow rows ++ nl :: str "CELL_TYPES" ++ blank :: count codes ++ nl :: flat_map (fun n => putN n ++ [nl]) codes ++ nl :: T.
Proof.
  unfold sections, cellsText, count. change (str "CELLS ") with (str "CELLS" ++ [blank]). change (str "CELL_TYPES ") with (str "CELL_TYPES" ++ [blank]).
  repeat (rewrite <- !app_assoc; cbn [app]). reflexivity.
Qed.

Theorem char_VTK2 l1 l2 L1 L2 (vs : list (C * C)) z rows codes (m : Mesh (C * C)) old m' types :
  zero_exact K -> free_line l1 -> free_line l2 -> one_line L1 -> one_line L2 -> small_file (length vs) rows codes ->
  loadVTK2 (vtk_header L1 L2 ++ vtk_body (mkVtk (map (fun p => (fst p, snd p, z)) vs) rows codes)) m old = Ok (m', types) ->
  forall T, readVTK2 K (header l1 l2 (body2 vs rows codes ++ T)) m old =
    Ok (mkMesh (m_dim m') (map (map2 g) (m_verts m')) (m_mid m') (m_faces m') (m_cells m') (m_bcells m'), types).
Proof.
  intros Z F1 F2 O1 O2 [S1 S2 S3 S4 S5 S6] H T.
  unfold loadVTK2, loadVTK, vtk_header in H. rewrite <- !app_assoc in H. cbn [app] in H.
  rewrite ignore_one_line in H by assumption. rewrite ignore_one_line in H by assumption.
  unfold vreadW at 1 in H. cbn [skip_nl] in H. rewrite is_word_refl in H. cbn [negb] in H.
  unfold vreadW at 1 in H. cbn [skip_nl] in H. rewrite is_word_refl in H. cbn [negb] in H.
  unfold vreadW at 1 in H. cbn [skip_nl] in H. rewrite is_word_refl in H. cbn [negb] in H.
  unfold vtk_body, points_section in H. cbn [vf_pts vf_cells vf_types] in H. rewrite <- !app_assoc in H. cbn [app] in H.
  unfold vreadW at 1 in H. cbn [skip_nl] in H. rewrite is_word_refl in H.
  unfold loadPoints in H. unfold vreadN at 1 in H. unfold vnum at 1 in H. cbn [skip_nl bind fst snd ignore_line] in H. rewrite Nat2N.id in H.
  set (pts := map (fun p => (fst p, snd p, z)) vs) in *.
  assert (Ep : map fst pts = vs).
  { unfold pts. rewrite map_map. cbn [fst]. rewrite (map_ext _ (fun p => p)) by (intros []; reflexivity). apply map_id. }
  destruct (vreadMany_points2 pts 0 (Vnl :: cells_section rows ++ types_section codes)) as [k1 E1].
  cbn [nls repeat app] in E1. rewrite E1 in H. cbn [bind fst snd] in H. rewrite Ep in H.
  change (@Vnl C :: cells_section rows ++ types_section codes) with ([@Vnl C] ++ cells_section rows ++ types_section codes) in H.
  rewrite app_assoc, nls_snoc in H. unfold cells_section in H. rewrite <- !app_assoc in H. cbn [app] in H. rewrite vreadW_nls, is_word_refl in H.
  apply bind_ok in H as ([m2 t2] & E2 & H). cbn [fst snd] in H.
  cbn [clear m_dim m_mid m_faces m_cells m_bcells] in E2.
  destruct (read_cells2 K rows _ (str "CELL_TYPES" ++ blank :: count codes ++ nl :: flat_map (fun n => putN n ++ [nl]) codes ++ nl :: T) (types_section codes) _ _ _ S3 S2 S4 E2 eq_refl)
    as ((k2 & ->) & Ev & w2 & Hw2 & Ec).
  unfold types_section in H. cbn [app] in H. rewrite vreadW_nls, is_word_refl in H.
  apply bind_ok in H as ([types' t3] & E3 & H). cbn [fst snd] in H. injection H as <- <-.
  destruct (read_types K _ _ _ codes (nl :: T) [@Vnl C] _ _ S5 S6 E3) as (s3 & E3').
  cbn [m_verts] in Ev.
  unfold readVTK2, xVTK2, xVTK. rewrite header_read by assumption. cbv zeta.
  rewrite (rdW_word0 K [] (str "ASCII")) by (reflexivity || discriminate). cbv beta iota. change (text_eqb (str "ASCII") (str "ASCII")) with true. cbn [negb].
  rewrite (rdW_word1 K _ (str "DATASET") nl) by (reflexivity || discriminate). cbv beta iota. change (text_eqb (str "DATASET") (str "DATASET")) with true. cbn [negb].
  rewrite (rdW_word1 K _ (str "UNSTRUCTURED_GRID") blank) by (reflexivity || discriminate). cbv beta iota. change (text_eqb (str "UNSTRUCTURED_GRID") (str "UNSTRUCTURED_GRID")) with true. cbn [negb].
  unfold body2. change (str "POINTS ") with (str "POINTS" ++ [blank]). repeat (rewrite <- app_assoc; cbn [app]).
  rewrite (rdW_word1 K _ (str "POINTS") nl) by (reflexivity || discriminate). cbv beta iota. change (text_eqb (str "POINTS") (str "POINTS")) with true. cbv iota.
  cbn [clear m_verts m_dim m_mid m_faces m_cells m_bcells].
  destruct (read_points2 K vs (sections rows codes ++ T) Z S1) as (w1 & Hw1 & E1'). rewrite E1'. cbn [bind fst snd].
  rewrite sections_cells.
  rewrite (rdW_word K _ (str "CELLS") w1) by (exact Hw1 || reflexivity || discriminate). cbv beta iota. change (text_eqb (str "CELLS") (str "CELLS")) with true. cbv iota.
  cbn [m_dim m_mid m_faces m_cells m_bcells] in Ec. rewrite Ec. cbn [bind fst snd].
  rewrite (rdW_word K _ (str "CELL_TYPES") w2) by (exact Hw2 || reflexivity || discriminate). cbv beta iota. change (text_eqb (str "CELL_TYPES") (str "CELL_TYPES")) with true. cbv iota.
  cbn [m_cells]. rewrite E3'. cbn [bind fst snd]. rewrite Ev. reflexivity.
Qed.
Theorem char_VTK3 reserve l1 l2 L1 L2 (vs : list (C * C * C)) rows codes (m : Mesh (C * C * C)) old m' types :
  free_line l1 -> free_line l2 -> one_line L1 -> one_line L2 -> small_file (length vs) rows codes ->
  loadVTK3 reserve (vtk_header L1 L2 ++ vtk_body (mkVtk vs rows codes)) m old = Ok (m', types) ->
  forall T, readVTK3 K reserve (header l1 l2 (body3 vs rows codes ++ T)) m old =
    Ok (mkMesh (m_dim m') (map (map3 g) (m_verts m')) (m_mid m') (m_faces m') (m_cells m') (m_bcells m'), types).
Proof.
  intros F1 F2 O1 O2 [S1 S2 S3 S4 S5 S6] H T.
  unfold loadVTK3, loadVTK, vtk_header in H. rewrite <- !app_assoc in H. cbn [app] in H.
  rewrite ignore_one_line in H by assumption. rewrite ignore_one_line in H by assumption.
  unfold vreadW at 1 in H. cbn [skip_nl] in H. rewrite is_word_refl in H. cbn [negb] in H.
  unfold vreadW at 1 in H. cbn [skip_nl] in H. rewrite is_word_refl in H. cbn [negb] in H.
  unfold vreadW at 1 in H. cbn [skip_nl] in H. rewrite is_word_refl in H. cbn [negb] in H.
  unfold vtk_body, points_section in H. cbn [vf_pts vf_cells vf_types] in H. rewrite <- !app_assoc in H. cbn [app] in H.
  unfold vreadW at 1 in H. cbn [skip_nl] in H. rewrite is_word_refl in H.
  unfold loadPoints in H. unfold vreadN at 1 in H. unfold vnum at 1 in H. cbn [skip_nl bind fst snd ignore_line] in H. rewrite Nat2N.id in H.
  destruct (vreadMany_points3 vs 0 (Vnl :: cells_section rows ++ types_section codes)) as [k1 E1].
  cbn [nls repeat app] in E1. rewrite E1 in H. cbn [bind fst snd] in H.
  change (@Vnl C :: cells_section rows ++ types_section codes) with ([@Vnl C] ++ cells_section rows ++ types_section codes) in H.
  rewrite app_assoc, nls_snoc in H. unfold cells_section in H. rewrite <- !app_assoc in H. cbn [app] in H. rewrite vreadW_nls, is_word_refl in H.
  apply bind_ok in H as ([m2 t2] & E2 & H). cbn [fst snd] in H.
  cbn [clear m_dim m_mid m_faces m_cells m_bcells] in E2.
  destruct (read_cells3 K reserve rows _ (str "CELL_TYPES" ++ blank :: count codes ++ nl :: flat_map (fun n => putN n ++ [nl]) codes ++ nl :: T) (types_section codes) _ _ _ S3 S2 S4 E2 eq_refl)
    as ((k2 & ->) & Ev & w2 & Hw2 & Ec).
  unfold types_section in H. cbn [app] in H. rewrite vreadW_nls, is_word_refl in H.
  apply bind_ok in H as ([types' t3] & E3 & H). cbn [fst snd] in H. injection H as <- <-.
  destruct (read_types K _ _ _ codes (nl :: T) [@Vnl C] _ _ S5 S6 E3) as (s3 & E3').
  cbn [m_verts] in Ev.
  unfold readVTK3, xVTK3, xVTK. rewrite header_read by assumption. cbv zeta.
  rewrite (rdW_word0 K [] (str "ASCII")) by (reflexivity || discriminate). cbv beta iota. change (text_eqb (str "ASCII") (str "ASCII")) with true. cbn [negb].
  rewrite (rdW_word1 K _ (str "DATASET") nl) by (reflexivity || discriminate). cbv beta iota. change (text_eqb (str "DATASET") (str "DATASET")) with true. cbn [negb].
  rewrite (rdW_word1 K _ (str "UNSTRUCTURED_GRID") blank) by (reflexivity || discriminate). cbv beta iota. change (text_eqb (str "UNSTRUCTURED_GRID") (str "UNSTRUCTURED_GRID")) with true. cbn [negb].
  unfold body3. change (str "POINTS ") with (str "POINTS" ++ [blank]). repeat (rewrite <- app_assoc; cbn [app]).
  rewrite (rdW_word1 K _ (str "POINTS") nl) by (reflexivity || discriminate). cbv beta iota. change (text_eqb (str "POINTS") (str "POINTS")) with true. cbv iota.
  cbn [clear m_verts m_dim m_mid m_faces m_cells m_bcells].
  destruct (read_points3 K vs (sections rows codes ++ T) S1) as (w1 & Hw1 & E1'). rewrite E1'. cbn [bind fst snd].
  rewrite sections_cells.
  rewrite (rdW_word K _ (str "CELLS") w1) by (exact Hw1 || reflexivity || discriminate). cbv beta iota. change (text_eqb (str "CELLS") (str "CELLS")) with true. cbv iota.
  cbn [m_dim m_mid m_faces m_cells m_bcells] in Ec. rewrite Ec. cbn [bind fst snd].
  rewrite (rdW_word K _ (str "CELL_TYPES") w2) by (exact Hw2 || reflexivity || discriminate). cbv beta iota. change (text_eqb (str "CELL_TYPES") (str "CELL_TYPES")) with true. cbv iota.
  cbn [m_cells]. rewrite E3'. cbn [bind fst snd]. rewrite Ev. reflexivity.
Qed.
End Whole.

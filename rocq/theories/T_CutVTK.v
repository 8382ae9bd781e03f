(** C83: VTK files cut short. *)
From Coq Require Import String Ascii QArith Permutation.
From Verif Require Import Base P_Base M_Conn S_Conn M_Mesh M_Connections S_Mesh M_Text M_Print M_Stream P_Stream S_Stream P_Stream2
  M_FPMA M_VTK M_VTKWrite M_FileText S_FileText S_FPMA S_VTK P_Poly P_FPMA P_VTK P_FileText P_FPMAText P_VTKText P_Cut P_CutVTK T_FileText T_VTKText.
Local Open Scope nat_scope.
Local Open Scope list_scope.

Section Parts.
Context {C P : Type}.
Variable K : fp C.
Local Notation o := (charOps K).
Variable loadV : ist -> list P -> outcome (list P * ist).
Variable loadC : ist -> Mesh P -> outcome (Mesh P * ist).
Variable conv : N -> option etype.
Local Notation X := (xVTK o loadV loadC conv).
(** What follows the header. *)
Definition after_cells (b5 : text) (old : list etype) (b : Mesh P * ist) : outcome (Mesh P * list etype) :=
  let (b6, s7) := rdW o b5 (snd b) in
  t <- (if text_eqb b6 (str "CELL_TYPES") then xTypes o conv (length (m_cells (fst b))) old s7 else Ok (old, s7)) ;; Ok (fst b, fst t).
Definition after_points (b4 : text) (old : list etype) (a : Mesh P * ist) : outcome (Mesh P * list etype) :=
  let (b5, s6) := rdW o b4 (snd a) in
  b <- (if text_eqb b5 (str "CELLS") then loadC s6 (fst a) else Ok (fst a, s6)) ;; after_cells b5 old b.
Definition after_header (m : Mesh P) (old : list etype) (s4 : ist) : outcome (Mesh P * list etype) :=
  let m0 := clear m in
  let (b4, s5) := rdW o (str "UNSTRUCTURED_GRID") s4 in
  a <- (if text_eqb b4 (str "POINTS")
        then vs <- loadV s5 (m_verts m0) ;; Ok (mkMesh (m_dim m0) (fst vs) (m_mid m0) (m_faces m0) (m_cells m0) (m_bcells m0), snd vs)
        else Ok (m0, s5)) ;;
  after_points b4 old a.
Lemma vtk_after m old s1 b1 s2 b2 s3 s4 : rdW o [] (ign o 1024 (ign o 1024 s1)) = (b1, s2) -> b1 = str "ASCII" -> rdW o b1 s2 = (b2, s3) -> b2 = str "DATASET" ->
  rdW o b2 s3 = (str "UNSTRUCTURED_GRID", s4) -> X s1 m old = after_header m old s4.
Proof. intros E1 -> E2 -> E3. unfold xVTK. cbv zeta. rewrite E1. cbv iota. change (negb (text_eqb (str "ASCII") (str "ASCII"))) with false. cbv iota.
  rewrite E2. change (negb (text_eqb (str "DATASET") (str "DATASET"))) with false. cbv iota. rewrite E3.
  change (negb (text_eqb (str "UNSTRUCTURED_GRID") (str "UNSTRUCTURED_GRID"))) with false. cbv iota. reflexivity.
Qed.
Variable name : text.
Hypothesis N1 : ~ In nl name.
Hypothesis N2 : length name < 1024.
Lemma ign_header q : ign o 1024 (ign o 1024 (fileOf (str "# vtk DataFile Version 2.0" ++ [nl] ++ name ++ [nl] ++ q))) = mkI q false.
Proof.
  destruct line1_free as [A1 B1]. cbn [ign charOps]. unfold ignore, fileOf. cbn [failed chars app]. rewrite drop_line_text by assumption.
  rewrite drop_line_text by assumption. reflexivity.
Qed.
Definition keys : text := str "ASCII" ++ [nl] ++ str "DATASET UNSTRUCTURED_GRID".
Lemma headerText_keys q : headerText name ++ q = str "# vtk DataFile Version 2.0" ++ [nl] ++ name ++ [nl] ++ keys ++ nl :: q.
Proof. unfold headerText, keys. repeat (rewrite <- !app_assoc; cbn [app]). reflexivity. Qed.
Lemma read_keys q m old : stop q = true -> X (fileOf (str "# vtk DataFile Version 2.0" ++ [nl] ++ name ++ [nl] ++ keys ++ q)) m old = after_header m old (mkI q false).
Proof.
  intros Hq. eapply vtk_after; [rewrite ign_header|reflexivity| |reflexivity|].
  - unfold keys. repeat (rewrite <- !app_assoc; cbn [app]). apply rdW_word0; (reflexivity || discriminate).
  - change (str "DATASET UNSTRUCTURED_GRID") with (str "DATASET" ++ blank :: str "UNSTRUCTURED_GRID"). repeat (rewrite <- !app_assoc; cbn [app]).
    apply rdW_word1; (reflexivity || discriminate).
  - apply rdW_word1; (reflexivity || discriminate || exact Hq).
Qed.
Lemma read_header q m old : X (fileOf (headerText name ++ q)) m old = after_header m old (mkI (nl :: q) false).
Proof. rewrite headerText_keys. apply read_keys. reflexivity. Qed.

Lemma bad_word s m old : (let (b1, _) := rdW o [] (ign o 1024 (ign o 1024 s)) in text_eqb b1 (str "ASCII") = false) -> X s m old = Throw.
Proof. unfold xVTK. cbv zeta. destruct (rdW o [] (ign o 1024 (ign o 1024 s))) as [b1 s2]. intros ->. reflexivity. Qed.
Lemma keys_cut k m old : k < length keys -> X (fileOf (str "# vtk DataFile Version 2.0" ++ [nl] ++ name ++ [nl] ++ firstn k keys)) m old = Throw.
Proof.
  intros Hk. unfold xVTK. cbv zeta. rewrite ign_header. change (length keys) with 31 in Hk.
  do 31 (destruct k as [|k]; [reflexivity|]). lia.
Qed.
Lemma prefix_firstn {A} (p r l : list A) : p ++ r = l -> p = firstn (length p) l.
Proof. intros <-. rewrite firstn_app, Nat.sub_diag, firstn_all. cbn. rewrite app_nil_r. reflexivity. Qed.
Lemma header_cut p r m old : p ++ r = headerText name -> 2 <= length r -> X (fileOf p) m old = Throw.
Proof.
  intros E L. rewrite <- (app_nil_r (headerText name)), headerText_keys in E. destruct line1_free as [A1 B1].
  set (t1 := str "# vtk DataFile Version 2.0") in *.
  destruct (cut_split p r t1 [nl] _ E) as [(p1 & -> & E1)|(y & Hy & E1)].
  - symmetry in E1. destruct (cut_split p1 r name [nl] _ E1) as [(p2 & -> & E2)|(y & Hy & E2)].
    + assert (p2 = firstn (length p2) keys).
      { destruct (exists_last (l := r)) as (r' & a & Er); [destruct r; [cbn in L; lia|discriminate]|]. subst r.
        change (keys ++ [nl]) with (keys ++ [nl]) in E2. rewrite app_assoc in E2. apply app_inj_tail in E2 as [E2 _]. symmetry in E2. apply (prefix_firstn _ r'). exact E2. }
      rewrite H. apply keys_cut. apply (f_equal (@length _)) in E2. rewrite !app_length in E2. cbn [length] in E2. lia.
    + apply bad_word. cbn [ign charOps]. unfold ignore, fileOf. cbn [failed chars app]. subst t1. rewrite drop_line_text by assumption.
      rewrite (drop_end p1 1024 name) by (assumption || eauto). reflexivity.
  - apply bad_word. cbn [ign charOps]. unfold ignore, fileOf. cbn [failed chars]. rewrite (drop_end p 1024 t1) by (assumption || eauto). reflexivity.
Qed.
(** Up to the keyword POINTS. *)
Definition empty_of (m : Mesh P) : Mesh P := clear m.
Lemma no_points x y m old : x ++ y = str "POINTS" -> y <> [] -> X (fileOf (headerText name ++ x)) m old = Ok (clear m, old).
Proof.
  intros E Hy. rewrite read_header. apply prefix_firstn in E as E'. assert (L : length x < 6).
  { apply (f_equal (@length _)) in E. rewrite app_length in E. destruct y; [contradiction|]. cbn [length str] in E. change (length (str "POINTS")) with 6 in E. lia. }
  rewrite E'. clear E E'. revert L. generalize (length x). intros k L.
  unfold after_header, after_points, after_cells. do 6 (destruct k as [|k]; [reflexivity|]). lia.
Qed.
Lemma header_without_nl m old : X (fileOf (str "# vtk DataFile Version 2.0" ++ [nl] ++ name ++ [nl] ++ keys)) m old = Ok (clear m, old).
Proof. rewrite <- (app_nil_r keys). rewrite read_keys by reflexivity. reflexivity. Qed.

(** Points. *)
Lemma read_points_word Y m old : stop Y = true -> X (fileOf (headerText name ++ str "POINTS" ++ Y)) m old =
  (a <- (vs <- loadV (mkI Y false) [] ;; Ok (mkMesh (m_dim m) (fst vs) (m_mid (clear m)) [] [] (m_bcells (clear m)), snd vs)) ;; after_points (str "POINTS") old a).
Proof.
  intros HY. rewrite read_header. unfold after_header. rewrite rdW_word1 by (reflexivity || discriminate || exact HY). reflexivity.
Qed.
Lemma after_out old (m1 : Mesh P) i : Out i -> after_points (str "POINTS") old (m1, i) = Ok (m1, old).
Proof. clear N1 N2.
  intros H. unfold after_points, after_cells. cbn [fst snd]. rewrite rdW_out by exact H. change (text_eqb (str "POINTS") (str "CELLS")) with false. cbv iota.
  cbn [bind fst snd]. rewrite rdW_out by apply Out_failed. reflexivity.
Qed.
Lemma after_cell old (m1 : Mesh P) w x y : all_space w = true -> x ++ y = str "CELLS" -> y <> [] -> after_points (str "POINTS") old (m1, mkI (w ++ x) false) = Ok (m1, old).
Proof. clear N1 N2.
  intros Hw E Hy. destruct x as [|a x].
  - rewrite app_nil_r. apply after_out, Out_space, Hw.
  - unfold after_points, after_cells. cbn [fst snd]. rewrite <- (app_nil_r (a :: x)).
    assert (L : length x < 4).
    { apply (f_equal (@length _)) in E. rewrite app_length in E. destruct y; [contradiction|]. cbn [length] in E. change (length (str "CELLS")) with 5 in E. lia. }
    apply prefix_firstn in E as E'. cbn [length] in E'.
    rewrite rdW_word; [|exact Hw|reflexivity|discriminate|].
    + rewrite E'. revert L. generalize (length x). intros k L. cbn [rdW charOps]. unfold getWord, sentry. cbn [failed chars].
      do 4 (destruct k as [|k]; [reflexivity|]). lia.
    + rewrite E'. revert L. generalize (length x). intros k L. do 4 (destruct k as [|k]; [reflexivity|]). lia.
Qed.
(** Types. *)
Lemma types_loop_app codes1 : forall n i types w, all_space w = true -> (forall c, In c codes1 -> (c < 2 ^ 31)%N) -> N.to_nat i + length codes1 <= length types ->
  exists types1 w', all_space w' = true /\ length types1 = length types /\ forall z',
    xTypesLoop o conv (length codes1 + n) i types (mkI (w ++ flat_map (fun c => putN c ++ [nl]) codes1 ++ z') false) =
    xTypesLoop o conv n (i + N.of_nat (length codes1)) types1 (mkI (w' ++ z') false).
Proof. clear N1 N2 name loadV loadC.
  induction codes1 as [|c codes1 IH]; intros n i types w Hw HC L.
  - exists types, w. split; [exact Hw|]. split; [reflexivity|]. intros z'. cbn [length flat_map app]. rewrite N.add_0_r. reflexivity.
  - cbn [length] in L. assert (Hc : (c < 2 ^ 31)%N) by (apply HC; left; reflexivity).
    assert (V : exists t1, match convZ conv (Z.of_N c) with Some e => vset types i e | None => Ok types end = Ok t1 /\ length t1 = length types).
    { destruct (convZ conv (Z.of_N c)) as [e|]; [|eauto]. unfold vset. destruct (N.ltb_spec i (N.of_nat (length types))); [|lia]. eexists. split; [reflexivity|].
      clear. revert i. induction types as [|t types IH]; intros i; [reflexivity|]. destruct (N.to_nat i) as [|k] eqn:E; cbn [upd length]; [reflexivity|].
      f_equal. specialize (IH (N.of_nat k)). rewrite Nat2N.id in IH. exact IH. }
    destruct V as (t1 & V1 & V2).
    destruct (IH n (i + 1)%N t1 [nl] eq_refl ltac:(intros x Hx; apply HC; right; exact Hx) ltac:(lia)) as (types1 & w' & Hw' & L1 & E).
    exists types1, w'. split; [exact Hw'|]. split; [congruence|]. intros z'. cbn [length Nat.add xTypesLoop flat_map]. rewrite <- !app_assoc. cbn [app].
    assert (R : rdI o (mkI (w ++ putN c ++ nl :: flat_map (fun c => putN c ++ [nl]) codes1 ++ z') false) =
            Ok (Z.of_N c, mkI (nl :: flat_map (fun c => putN c ++ [nl]) codes1 ++ z') false)).
    { cbn [rdI charOps]. rewrite getInt_putN by (exact Hc || exact Hw || reflexivity). reflexivity. }
    rewrite R. cbn [bind fst snd]. rewrite V1. cbn [bind]. specialize (E z'). cbn [app] in E. rewrite E. f_equal. lia.
Qed.
Lemma types_cut (codes1 codes2 : list N) old ncells z z2 types s : ncells = length codes1 + length codes2 -> (N.of_nat ncells < 2 ^ 64)%N ->
  (forall c, In c codes1 -> (c < 2 ^ 31)%N) ->
  xTypes o conv ncells old (mkI (blank :: putN (N.of_nat ncells) ++ nl :: flat_map (fun c => putN c ++ [nl]) codes1 ++ z2) false) = Ok (types, s) ->
  exists types' s', xTypes o conv ncells old (mkI (blank :: putN (N.of_nat ncells) ++ nl :: flat_map (fun c => putN c ++ [nl]) codes1 ++ z) false) = Ok (types', s') /\
    length types' = ncells /\ firstn (length codes1) types' = firstn (length codes1) types.
Proof. clear N1 N2 name loadV loadC.
  intros En Hn HC H. unfold xTypes in *. rewrite rdN_blank in H by (assumption || reflexivity). rewrite rdN_blank by (assumption || reflexivity).
  cbn [bind fst snd] in *. rewrite Nat2N.id in *. rewrite En in *.
  set (t0 := vresize (length codes1 + length codes2) Tdefault old) in *.
  assert (L0 : length t0 = length codes1 + length codes2) by apply vresize_length.
  destruct (types_loop_app codes1 (length codes2) 0%N t0 [nl] eq_refl HC ltac:(rewrite L0; cbn; lia)) as (t1 & w' & Hw' & L1 & E).
  cbn [app] in E. rewrite E in H. rewrite E. rewrite N.add_0_l in *.
  destruct (types_any K conv (length codes2) (N.of_nat (length codes1)) t1 (mkI (w' ++ z) false)) as (t2 & s2 & E2 & L2 & F2); [rewrite Nat2N.id; lia|].
  destruct (types_any K conv (length codes2) (N.of_nat (length codes1)) t1 (mkI (w' ++ z2) false)) as (t3 & s3 & E3 & L3 & F3); [rewrite Nat2N.id; lia|].
  rewrite E3 in H. injection H as <- <-. exists t2, s2. split; [exact E2|]. rewrite Nat2N.id in *. split; [lia|congruence].
Qed.
Lemma types_word old (m1 : Mesh P) w z : all_space w = true -> stop z = true ->
  after_cells (str "CELLS") old (m1, mkI (w ++ str "CELL_TYPES" ++ z) false) = (t <- xTypes o conv (length (m_cells m1)) old (mkI z false) ;; Ok (m1, fst t)).
Proof. clear N1 N2 name loadV loadC. intros Hw Hz. unfold after_cells. cbn [fst snd]. rewrite rdW_word by (assumption || reflexivity || discriminate). reflexivity. Qed.
Lemma types_noword old (m1 : Mesh P) w x y : all_space w = true -> x ++ y = str "CELL_TYPES" -> y <> [] ->
  after_cells (str "CELLS") old (m1, mkI (w ++ x) false) = Ok (m1, old).
Proof. clear N1 N2 name loadV loadC.
  intros Hw E Hy. unfold after_cells. cbn [fst snd]. destruct x as [|a x].
  - rewrite app_nil_r, rdW_out by (apply Out_space, Hw). reflexivity.
  - assert (L : length x < 9).
    { apply (f_equal (@length _)) in E. rewrite app_length in E. destruct y; [contradiction|]. cbn [length] in E. change (length (str "CELL_TYPES")) with 10 in E. lia. }
    apply prefix_firstn in E as E'. cbn [length] in E'. rewrite <- (app_nil_r (a :: x)). rewrite rdW_word; [|exact Hw|reflexivity|discriminate|].
    + rewrite E'. revert L. generalize (length x). intros k L. do 9 (destruct k as [|k]; [reflexivity|]). lia.
    + rewrite E'. revert L. generalize (length x). intros k L. do 9 (destruct k as [|k]; [reflexivity|]). lia.
Qed.
End Parts.

(** * The theorems *)
(** In the header: exception. *)
Theorem C83_header : forall C (K : fp C) name p r, ~ In nl name -> length name < 1024 -> p ++ r = headerText name -> 2 <= length r ->
  (forall m old, readVTK2 K p m old = Throw) /\ (forall reserve m old, readVTK3 K reserve p m old = Throw).
Proof.
  intros C K name p r N1 N2 E L. split; intros; [apply (header_cut K _ _ _ name N1 N2 p r); assumption|apply (header_cut K _ _ _ name N1 N2 p r); assumption].
Qed.
Print Assumptions C83_header.

(** Between the header and the word POINTS (x: a part of that word): an empty mesh, no exception. *)
Theorem C83_finding_no_points : forall C (K : fp C) name x y, ~ In nl name -> length name < 1024 -> x ++ y = str "POINTS" -> y <> [] ->
  (forall m old, exists m', readVTK2 K (headerText name ++ x) m old = Ok (m', old) /\ m_verts m' = [] /\ m_faces m' = [] /\ m_cells m' = []) /\
  (forall reserve m old, exists m', readVTK3 K reserve (headerText name ++ x) m old = Ok (m', old) /\ m_verts m' = [] /\ m_faces m' = [] /\ m_cells m' = []).
Proof.
  intros C K name x y N1 N2 E Hy. split; intros; eexists; (split; [apply (no_points K _ _ _ name N1 N2 x y); assumption|auto]).
Qed.
Print Assumptions C83_finding_no_points.

(** Without the number of points: an uninitialised variable is used. *)
Theorem C83_finding_no_count : forall C (K : fp C) name w, ~ In nl name -> length name < 1024 -> all_space w = true ->
  (forall m old, readVTK2 K (headerText name ++ str "POINTS" ++ w) m old = UB) /\
  (forall reserve m old, readVTK3 K reserve (headerText name ++ str "POINTS" ++ w) m old = UB).
Proof.
  intros C K name w N1 N2 Hw. assert (St : stop w = true) by (destruct w; [reflexivity|]; cbn in Hw; apply andb_true_iff in Hw; tauto).
  split; intros; [unfold readVTK2, xVTK2|unfold readVTK3, xVTK3]; rewrite read_points_word by assumption;
    [unfold xPoints2|unfold xPoints3]; rewrite outN by (apply Out_space; exact Hw); reflexivity.
Qed.
Print Assumptions C83_finding_no_count.

(** Among the points, up to the word CELLS. *)
Lemma points_parts (pts q y : text) : q ++ y = str " double" ++ [nl] ++ pts ++ [nl] ++ str "CELL" ->
  (exists y', y' <> [] /\ q ++ y' = str " double" ++ [nl]) \/ (exists q' y', q = str " double" ++ nl :: q' /\ q' ++ y' = pts ++ [nl]) \/
  (exists x y', q = str " double" ++ nl :: pts ++ nl :: x /\ x ++ y' = str "CELLS" /\ y' <> []).
Proof.
  intros E. destruct (cut_split q y (str " double") [nl] _ E) as [(q' & -> & E')|(y' & Hy & E')]; [right|left; eauto].
  symmetry in E'. destruct (cut_split q' y pts [nl] _ E') as [(x & -> & E2)|(y' & Hy & E2)].
  - right. exists x, (y ++ str "S"). split; [reflexivity|]. split; [|destruct y; discriminate]. rewrite app_assoc, <- E2. reflexivity.
  - left. exists q', y'. auto.
Qed.
Lemma points_dropped q y : q ++ y = str " double" ++ [nl] -> y <> [] -> drop_line 20 q = [] /\ stop q = true.
Proof.
  intros E Hy. split.
  - apply (drop_end q 20 (str " double")); [intros H; cbn in H; intuition discriminate|cbn; lia|eauto].
  - destruct q as [|a q]; [reflexivity|]. injection E as -> _. reflexivity.
Qed.
Lemma split_repeat {A} (a : A) n k : repeat a (n + k) = repeat a n ++ repeat a k.
Proof. apply repeat_app. Qed.

Theorem C83_finding_points3 : forall C (K : fp C) name (vs : list (C * C * C)) q y reserve m old, ~ In nl name -> length name < 1024 ->
  (N.of_nat (length vs) < 2 ^ 64)%N ->
  q ++ y = str " double" ++ [nl] ++ flat_map (putPoint3 K) vs ++ [nl] ++ str "CELL" ->
  exists m', readVTK3 K reserve (headerText name ++ str "POINTS " ++ count vs ++ q) m old = Ok (m', old) /\
    length (m_verts m') = length vs /\ m_faces m' = [] /\ m_cells m' = [] /\
    (forall vs1 vs2 z, vs = vs1 ++ vs2 -> q = str " double" ++ [nl] ++ flat_map (putPoint3 K) vs1 ++ z ->
       Forall2 (copy3 K) vs1 (firstn (length vs1) (m_verts m'))).
Proof.
  intros C K name vs q y reserve m old N1 N2 SV E. change (str "POINTS ") with (str "POINTS" ++ [blank]). rewrite <- (app_assoc (str "POINTS")).
  unfold readVTK3, xVTK3. rewrite read_points_word by (assumption || reflexivity). unfold count. cbn [app].
  assert (Hq : stop q = true) by (destruct q as [|a q]; [reflexivity|]; injection E as -> _; reflexivity).
  unfold xPoints3. rewrite rdN_blank by assumption. cbn [bind fst snd ign charOps]. unfold ignore. cbn [failed chars]. rewrite vresize_nil, Nat2N.id.
  set (z := (near K 0, near K 0, near K 0)).
  assert (Complete : forall l i, rdPoints3 (charOps K) (repeat z (length vs)) (mkI (drop_line 20 q) false) = Ok (l, i) ->
    forall vs1 vs2 z1, vs = vs1 ++ vs2 -> q = str " double" ++ [nl] ++ flat_map (putPoint3 K) vs1 ++ z1 -> Forall2 (copy3 K) vs1 (firstn (length vs1) l)).
  { intros l i R vs1 vs2 z1 -> ->. rewrite app_length, split_repeat in R. cbn [app] in R.
    rewrite drop_line_text in R by (try (cbn; lia); intros H; cbn in H; intuition discriminate).
    pose proof (points3_app K vs1 (repeat z (length vs1)) (repeat z (length vs2)) [] z1 (repeat_length _ _) eq_refl) as PA. cbn [app] in PA. rewrite PA in R.
    apply bind_ok in R as ([l2 j] & _ & R). cbn [fst snd] in R. injection R as <- <-.
    rewrite firstn_app, map_length, Nat.sub_diag, firstn_all2 by (rewrite map_length; lia). cbn [firstn]. rewrite app_nil_r. apply map3_copy. }
  destruct (points_parts _ _ _ E) as [(y' & Hy & E1)|[(q' & y' & -> & E1)|(x & y' & -> & E1 & Hy)]].
  - destruct (points_dropped _ _ E1 Hy) as [Dq _]. rewrite Dq in *.
    destruct (out_points3 K (repeat z (length vs)) (mkI [] false) (Out_empty _)) as (i & R & HO). rewrite R. cbn [bind fst snd]. rewrite after_out by exact HO.
    eexists. split; [reflexivity|]. cbn [m_verts m_faces m_cells]. split; [apply repeat_length|]. split; [reflexivity|]. split; [reflexivity|]. apply (Complete _ _ R).
  - rewrite drop_line_text in * by (try (cbn; lia); intros H; cbn in H; intuition discriminate).
    destruct (points3_cut K vs (repeat z (length vs)) [] q' y' (repeat_length _ _) eq_refl E1) as (l & i & R & HO). cbn [app] in R.
    rewrite R. cbn [bind fst snd]. rewrite after_out by exact HO.
    eexists. split; [reflexivity|]. cbn [m_verts m_faces m_cells]. split; [rewrite (rdPoints3_length K _ _ _ _ R); apply repeat_length|]. split; [reflexivity|]. split; [reflexivity|]. apply (Complete _ _ R).
  - rewrite drop_line_text in * by (try (cbn; lia); intros H; cbn in H; intuition discriminate).
    pose proof (points3_app K vs (repeat z (length vs)) [] [] (nl :: x) (repeat_length _ _) eq_refl) as PA. rewrite app_nil_r in PA. cbn [app rdPoints3 bind fst snd] in PA.
    rewrite PA in *. cbn [bind fst snd]. rewrite app_nil_r in *.
    replace (wsp [] vs ++ nl :: x) with ((wsp [] vs ++ [nl]) ++ x) by (rewrite <- app_assoc; reflexivity).
    rewrite (after_cell K _ _ old _ (wsp [] vs ++ [nl]) x y') by (exact E1 || exact Hy || (destruct vs; reflexivity)).
    eexists. split; [reflexivity|]. cbn [m_verts m_faces m_cells]. split; [apply map_length|]. split; [reflexivity|]. split; [reflexivity|]. apply (Complete _ _ eq_refl).
Qed.
Print Assumptions C83_finding_points3.

Theorem C83_finding_points2 : forall C (K : fp C) name (vs : list (C * C)) q y m old, ~ In nl name -> length name < 1024 ->
  (N.of_nat (length vs) < 2 ^ 64)%N ->
  q ++ y = str " double" ++ [nl] ++ flat_map (putPoint2 K) vs ++ [nl] ++ str "CELL" ->
  exists m', readVTK2 K (headerText name ++ str "POINTS " ++ count vs ++ q) m old = Ok (m', old) /\
    length (m_verts m') = length vs /\ m_faces m' = [] /\ m_cells m' = [] /\
    (forall vs1 vs2 z, vs = vs1 ++ vs2 -> q = str " double" ++ [nl] ++ flat_map (putPoint2 K) vs1 ++ z ->
       Forall2 (copy2 K) vs1 (firstn (length vs1) (m_verts m'))).
Proof.
  intros C K name vs q y m old N1 N2 SV E. change (str "POINTS ") with (str "POINTS" ++ [blank]). rewrite <- (app_assoc (str "POINTS")).
  unfold readVTK2, xVTK2. rewrite read_points_word by (assumption || reflexivity). unfold count. cbn [app].
  assert (Hq : stop q = true) by (destruct q as [|a q]; [reflexivity|]; injection E as -> _; reflexivity).
  unfold xPoints2. rewrite rdN_blank by assumption. cbn [bind fst snd ign charOps]. unfold ignore. cbn [failed chars]. rewrite vresize_nil, Nat2N.id.
  set (z := (near K 0, near K 0)).
  assert (Complete : forall l i, rdPoints2 (charOps K) (near K 0) (repeat z (length vs)) (mkI (drop_line 20 q) false) = Ok (l, i) ->
    forall vs1 vs2 z1, vs = vs1 ++ vs2 -> q = str " double" ++ [nl] ++ flat_map (putPoint2 K) vs1 ++ z1 -> Forall2 (copy2 K) vs1 (firstn (length vs1) l)).
  { intros l i R vs1 vs2 z1 -> ->. rewrite app_length, split_repeat in R. cbn [app] in R.
    rewrite drop_line_text in R by (try (cbn; lia); intros H; cbn in H; intuition discriminate).
    pose proof (points2_app K vs1 (near K 0) (repeat z (length vs1)) (repeat z (length vs2)) [] z1 (repeat_length _ _) eq_refl eq_refl) as PA. cbn [app] in PA. rewrite PA in R.
    apply bind_ok in R as ([l2 j] & _ & R). cbn [fst snd] in R. injection R as <- <-.
    rewrite firstn_app, map_length, Nat.sub_diag, firstn_all2 by (rewrite map_length; lia). cbn [firstn]. rewrite app_nil_r. apply map2_copy. }
  destruct (points_parts _ _ _ E) as [(y' & Hy & E1)|[(q' & y' & -> & E1)|(x & y' & -> & E1 & Hy)]].
  - destruct (points_dropped _ _ E1 Hy) as [Dq _]. rewrite Dq in *.
    destruct (out_points2 K (repeat z (length vs)) (near K 0) (mkI [] false) (Out_empty _)) as (l & i & R & HO). rewrite R. cbn [bind fst snd]. rewrite after_out by exact HO.
    eexists. split; [reflexivity|]. cbn [m_verts m_faces m_cells]. split; [rewrite (rdPoints2_length K _ _ _ _ _ R); apply repeat_length|]. split; [reflexivity|]. split; [reflexivity|]. apply (Complete _ _ R).
  - rewrite drop_line_text in * by (try (cbn; lia); intros H; cbn in H; intuition discriminate).
    destruct (points2_cut K vs (repeat z (length vs)) (near K 0) [] q' y' (repeat_length _ _) eq_refl E1) as (l & i & R & HO). cbn [app] in R.
    rewrite R. cbn [bind fst snd]. rewrite after_out by exact HO.
    eexists. split; [reflexivity|]. cbn [m_verts m_faces m_cells]. split; [rewrite (rdPoints2_length K _ _ _ _ _ R); apply repeat_length|]. split; [reflexivity|]. split; [reflexivity|]. apply (Complete _ _ R).
  - rewrite drop_line_text in * by (try (cbn; lia); intros H; cbn in H; intuition discriminate).
    pose proof (points2_app K vs (near K 0) (repeat z (length vs)) [] [] (nl :: x) (repeat_length _ _) eq_refl eq_refl) as PA. rewrite app_nil_r in PA. cbn [app rdPoints2 bind fst snd] in PA.
    rewrite PA in *. cbn [bind fst snd]. rewrite app_nil_r in *.
    replace (wsp [] vs ++ nl :: x) with ((wsp [] vs ++ [nl]) ++ x) by (rewrite <- app_assoc; reflexivity).
    rewrite (after_cell K _ _ old _ (wsp [] vs ++ [nl]) x y') by (exact E1 || exact Hy || (destruct vs; reflexivity)).
    eexists. split; [reflexivity|]. cbn [m_verts m_faces m_cells]. split; [apply map_length|]. split; [reflexivity|]. split; [reflexivity|]. apply (Complete _ _ eq_refl).
Qed.
Print Assumptions C83_finding_points2.

(** Among the cells: never accepted before the last row is reached. *)
Section Load.
Context {C : Type}.
Variable K : fp C.
Local Notation o := (charOps K).
Local Notation g := (reread K).
Lemma load_points2 (vs : list (C * C)) z : (N.of_nat (length vs) < 2 ^ 64)%N ->
  xPoints2 o (near K 0) (mkI (blank :: putN (N.of_nat (length vs)) ++ str " double" ++ nl :: flat_map (putPoint2 K) vs ++ z) false) [] =
  Ok (map (map2 g) vs, mkI (wsp [] vs ++ z) false).
Proof.
  intros SV. unfold xPoints2. rewrite rdN_blank by (assumption || reflexivity). cbn [bind fst snd ign charOps]. unfold ignore. cbn [failed chars].
  rewrite vresize_nil, Nat2N.id. rewrite drop_line_text by (try (cbn; lia); intros H; cbn in H; intuition discriminate).
  pose proof (points2_app K vs (near K 0) (repeat (near K 0, near K 0) (length vs)) [] [] z (repeat_length _ _) eq_refl eq_refl) as PA.
  rewrite app_nil_r in PA. cbn [app rdPoints2 bind fst snd] in PA. rewrite app_nil_r in PA. exact PA.
Qed.
Lemma load_points3 (vs : list (C * C * C)) z : (N.of_nat (length vs) < 2 ^ 64)%N ->
  xPoints3 o (near K 0) (mkI (blank :: putN (N.of_nat (length vs)) ++ str " double" ++ nl :: flat_map (putPoint3 K) vs ++ z) false) [] =
  Ok (map (map3 g) vs, mkI (wsp [] vs ++ z) false).
Proof.
  intros SV. unfold xPoints3. rewrite rdN_blank by (assumption || reflexivity). cbn [bind fst snd ign charOps]. unfold ignore. cbn [failed chars].
  rewrite vresize_nil, Nat2N.id. rewrite drop_line_text by (try (cbn; lia); intros H; cbn in H; intuition discriminate).
  pose proof (points3_app K vs (repeat (near K 0, near K 0, near K 0) (length vs)) [] [] z (repeat_length _ _) eq_refl) as PA.
  rewrite app_nil_r in PA. cbn [app rdPoints3 bind fst snd] in PA. rewrite app_nil_r in PA. exact PA.
Qed.
Lemma cells2_length old : forall c F em i bs F' s, xCells2Loop o old c F em i = Ok (bs, F', s) -> length bs = length old.
Proof.
  induction old as [|b old IH]; intros c F em i bs F' s H; cbn [xCells2Loop] in H; [injection H as <- <- <-; reflexivity|].
  apply bind_ok in H as (row & _ & H). apply bind_ok in H as ([[b1 F1] em1] & _ & H). apply bind_ok in H as ([[bs2 F2] s2] & H & E). injection E as <- <- <-.
  cbn [length]. rewrite (IH _ _ _ _ _ _ _ H). reflexivity.
Qed.
Lemma cells3_length reserve old : forall c e eem F em i bs e' F' s, xCells3Loop o reserve old c e eem F em i = Ok (bs, e', F', s) -> length bs = length old.
Proof.
  induction old as [|b old IH]; intros c e eem F em i bs e' F' s H; cbn [xCells3Loop] in H; [injection H as <- <- <- <-; reflexivity|].
  apply bind_ok in H as (row & _ & H). destruct (shape (N.of_nat (length (fst row)))) as [[eo fo]|]; [|discriminate H].
  apply bind_ok in H as ([[x1 x2] x3] & _ & H). apply bind_ok in H as (it & _ & H). apply bind_ok in H as ([[b1 F1] em1] & _ & H).
  apply bind_ok in H as ([[[bs2 e2] F2] s2] & H & E). injection E as <- <- <- <-. cbn [length]. rewrite (IH _ _ _ _ _ _ _ _ _ _ H). reflexivity.
Qed.
End Load.

Definition points2Text {C} (K : fp C) (name : text) (vs : list (C * C)) : text :=
  headerText name ++ str "POINTS " ++ count vs ++ str " double" ++ [nl] ++ flat_map (putPoint2 K) vs ++ [nl].
Definition points3Text {C} (K : fp C) (name : text) (vs : list (C * C * C)) : text :=
  headerText name ++ str "POINTS " ++ count vs ++ str " double" ++ [nl] ++ flat_map (putPoint3 K) vs ++ [nl].
Lemma read_upto2 {C} (K : fp C) name vs z m old : ~ In nl name -> length name < 1024 -> (N.of_nat (length vs) < 2 ^ 64)%N -> stop z = true ->
  readVTK2 K (points2Text K name vs ++ str "CELLS" ++ z) m old =
  (b <- xCells2 (charOps K) (mkI z false) (mkMesh (m_dim m) (map (map2 (reread K)) vs) (m_mid (clear m)) [] [] (m_bcells (clear m))) ;;
   after_cells K vtkType2 (str "CELLS") old b).
Proof.
  intros N1 N2 SV Hz. unfold points2Text. change (str "POINTS ") with (str "POINTS" ++ [blank]). unfold count. repeat (rewrite <- !app_assoc; cbn [app]).
  unfold readVTK2, xVTK2. rewrite read_points_word by (assumption || reflexivity). rewrite (load_points2 K vs) by exact SV. cbn [bind fst snd].
  unfold after_points. cbn [fst snd].
  replace (wsp [] vs ++ nl :: str "CELLS" ++ z) with ((wsp [] vs ++ [nl]) ++ str "CELLS" ++ z) by (rewrite <- app_assoc; reflexivity).
  rewrite (rdW_word K _ (str "CELLS")) by (assumption || reflexivity || discriminate || (destruct vs; reflexivity)). reflexivity.
Qed.
Lemma read_upto3 {C} (K : fp C) reserve name vs z m old : ~ In nl name -> length name < 1024 -> (N.of_nat (length vs) < 2 ^ 64)%N -> stop z = true ->
  readVTK3 K reserve (points3Text K name vs ++ str "CELLS" ++ z) m old =
  (b <- xCells3 (charOps K) reserve (mkI z false) (mkMesh (m_dim m) (map (map3 (reread K)) vs) (m_mid (clear m)) [] [] (m_bcells (clear m))) ;;
   after_cells K vtkType3 (str "CELLS") old b).
Proof.
  intros N1 N2 SV Hz. unfold points3Text. change (str "POINTS ") with (str "POINTS" ++ [blank]). unfold count. repeat (rewrite <- !app_assoc; cbn [app]).
  unfold readVTK3, xVTK3. rewrite read_points_word by (assumption || reflexivity). rewrite (load_points3 K vs) by exact SV. cbn [bind fst snd].
  unfold after_points. cbn [fst snd].
  replace (wsp [] vs ++ nl :: str "CELLS" ++ z) with ((wsp [] vs ++ [nl]) ++ str "CELLS" ++ z) by (rewrite <- app_assoc; reflexivity).
  rewrite (rdW_word K _ (str "CELLS")) by (assumption || reflexivity || discriminate || (destruct vs; reflexivity)). reflexivity.
Qed.

Theorem C83_cells2 : forall C (K : fp C) name (vs : list (C * C)) rs l total q y m old res, ~ In nl name -> length name < 1024 ->
  (N.of_nat (length vs) < 2 ^ 64)%N -> (N.of_nat (length (rs ++ [l])) < 2 ^ 64)%N -> (total < 2 ^ 128)%N -> (forall r, In r rs -> small r) ->
  q ++ y = str " " ++ count (rs ++ [l]) ++ str " " ++ putN total ++ [nl] ++ flat_map putRow rs ->
  readVTK2 K (points2Text K name vs ++ str "CELLS" ++ q) m old <> Ok res.
Proof.
  intros C K name vs rs l total q y m old res N1 N2 SV SR ST HS E. change (str " ") with [blank] in E. unfold count in E. cbn [app] in E.
  assert (Hq : stop q = true) by (apply (stop_cut q y); rewrite E; reflexivity).
  rewrite read_upto2 by assumption. unfold xCells2. cbn [m_cells m_faces]. intros H. apply bind_ok in H as (b & H & _). apply bind_ok in H as ([n i] & R & H). cbn [fst snd] in H.
  apply bind_ok in H as (r & H & _). rewrite app_length in E, SR. cbn [length] in E, SR.
  destruct (cells_line_cut K total rs q y (N.of_nat (length rs + 1)) ltac:(lia) ST E) as [U|[(n' & i' & U & N0 & HO)|(q' & i' & U & U2 & E2)]]; rewrite U in R; [discriminate| |]; injection R as <- <-.
  - cbn [ign charOps] in H. rewrite vresize_nil in H. destruct (N.to_nat n') as [|k] eqn:Ek; [lia|]. cbn [repeat] in H. rewrite cells2_out in H by exact HO. discriminate.
  - cbn [ign charOps] in H. rewrite U2, vresize_nil, Nat2N.id in H. revert H. apply (cells2_cut K rs _ _ _ _ [] q' y); [rewrite repeat_length; lia|reflexivity|exact E2|exact HS].
Qed.
Print Assumptions C83_cells2.
Theorem C83_cells3 : forall C (K : fp C) name (vs : list (C * C * C)) rs l total q y reserve m old res, ~ In nl name -> length name < 1024 ->
  (N.of_nat (length vs) < 2 ^ 64)%N -> (N.of_nat (length (rs ++ [l])) < 2 ^ 64)%N -> (total < 2 ^ 128)%N -> (forall r, In r rs -> small r) ->
  q ++ y = str " " ++ count (rs ++ [l]) ++ str " " ++ putN total ++ [nl] ++ flat_map putRow rs ->
  readVTK3 K reserve (points3Text K name vs ++ str "CELLS" ++ q) m old <> Ok res.
Proof.
  intros C K name vs rs l total q y reserve m old res N1 N2 SV SR ST HS E. change (str " ") with [blank] in E. unfold count in E. cbn [app] in E.
  assert (Hq : stop q = true) by (apply (stop_cut q y); rewrite E; reflexivity).
  rewrite read_upto3 by assumption. unfold xCells3. cbn [m_cells m_faces]. intros H. apply bind_ok in H as (b & H & _). apply bind_ok in H as ([n i] & R & H). cbn [fst snd] in H.
  apply bind_ok in H as (r & H & _). rewrite app_length in E, SR. cbn [length] in E, SR.
  destruct (cells_line_cut K total rs q y (N.of_nat (length rs + 1)) ltac:(lia) ST E) as [U|[(n' & i' & U & N0 & HO)|(q' & i' & U & U2 & E2)]]; rewrite U in R; [discriminate| |]; injection R as <- <-.
  - cbn [ign charOps] in H. rewrite vresize_nil in H. destruct (N.to_nat n') as [|k] eqn:Ek; [lia|]. cbn [repeat] in H. rewrite cells3_out in H by exact HO. discriminate.
  - cbn [ign charOps] in H. rewrite U2, vresize_nil, Nat2N.id in H. revert H. apply (cells3_cut K reserve rs _ _ _ _ _ _ [] q' y); [rewrite repeat_length; lia|reflexivity|exact E2|exact HS].
Qed.
Print Assumptions C83_cells3.

(** After the rows: the mesh is complete, the types of the cells are not. *)
Definition cellRows (rows : list (list N)) (total : N) : text := str " " ++ count rows ++ str " " ++ putN total ++ [nl] ++ flat_map putRow rows ++ [nl].
Definition typeLines (codes : list N) : text := flat_map (fun c => putN c ++ [nl]) codes.
Theorem C83_finding_types2 : forall C (K : fp C) name (vs : list (C * C)) rows total codes m old m' types, ~ In nl name -> length name < 1024 ->
  (N.of_nat (length vs) < 2 ^ 64)%N -> (N.of_nat (length rows) < 2 ^ 64)%N -> (total < 2 ^ 128)%N -> (forall r, In r rows -> small r) ->
  length codes = length rows -> (forall c, In c codes -> (c < 2 ^ 31)%N) ->
  let file := points2Text K name vs ++ str "CELLS" ++ cellRows rows total in
  readVTK2 K (file ++ str "CELL_TYPES" ++ str " " ++ count codes ++ [nl] ++ typeLines codes ++ [nl]) m old = Ok (m', types) ->
  (forall x y, x ++ y = str "CELL_TYPES" -> y <> [] -> readVTK2 K (file ++ x) m old = Ok (m', old)) /\
  (forall w, all_space w = true -> readVTK2 K (file ++ str "CELL_TYPES" ++ w) m old = UB) /\
  (forall codes1 codes2 z, codes = codes1 ++ codes2 -> exists types',
     readVTK2 K (file ++ str "CELL_TYPES" ++ str " " ++ count codes ++ [nl] ++ typeLines codes1 ++ z) m old = Ok (m', types') /\
     length types' = length rows /\ firstn (length codes1) types' = firstn (length codes1) types).
Proof.
  intros C K name vs rows total codes m old m' types N1 N2 SV SR ST HS LC HC file H.
  set (m0 := mkMesh (m_dim m) (map (map2 (reread K)) vs) (m_mid (clear m)) [] [] (m_bcells (clear m))).
  assert (G : exists w m1, all_space w = true /\ length (m_cells m1) = length rows /\
    (forall r, readVTK2 K (file ++ r) m old = after_cells K vtkType2 (str "CELLS") old (m1, mkI (w ++ r) false))).
  { assert (S : forall r, readVTK2 K (file ++ r) m old = (b <- (r0 <- xCells2Loop (charOps K) (repeat INVALID (length rows)) 0 [] [] (mkI (flat_map putRow rows ++ nl :: r) false) ;;
      let '(bs, F, s') := r0 in Ok (mkMesh (m_dim m) (map (map2 (reread K)) vs) (m_mid (clear m)) F bs (m_bcells (clear m)), s')) ;; after_cells K vtkType2 (str "CELLS") old b)).
    { intros r. unfold file, cellRows, count. change (str " ") with [blank]. repeat (rewrite <- !app_assoc; cbn [app]). rewrite read_upto2 by (assumption || reflexivity).
      unfold xCells2. rewrite rdN_blank by (assumption || reflexivity). cbn [bind fst snd m_cells m_faces ign charOps m_dim m_verts m_mid m_bcells]. rewrite vresize_nil, Nat2N.id. unfold ignore. cbn [failed chars].
      rewrite total_line by exact ST. reflexivity. }
    pose proof H as H0. rewrite S in H0. apply bind_ok in H0 as ([m1 s1] & H0 & _). apply bind_ok in H0 as ([[bs F] s'] & H0 & E). injection E as <- <-.
    destruct (cells2_app K rows (repeat INVALID (length rows)) _ _ _ [] (nl :: str "CELL_TYPES" ++ str " " ++ count codes ++ [nl] ++ typeLines codes ++ [nl]) bs F s' (repeat_length _ _) eq_refl HS H0) as (w & Hw & CA).
    exists (w ++ [nl]), (mkMesh (m_dim m) (map (map2 (reread K)) vs) (m_mid (clear m)) F bs (m_bcells (clear m))).
    split; [rewrite all_space_app, Hw; reflexivity|]. split; [cbn [m_cells]; rewrite (cells2_length K _ _ _ _ _ _ _ _ H0); apply repeat_length|].
    intros r. rewrite S. specialize (CA (nl :: r)). cbn [app] in CA. rewrite CA. cbn [bind]. rewrite <- app_assoc. reflexivity. }
  destruct G as (w & m1 & Hw & L1 & G). rewrite G in H. rewrite types_word in H by (exact Hw || reflexivity). apply bind_ok in H as ([ty s] & H & E). cbn [fst] in E. injection E as <- <-.
  split; [|split].
  - intros x y E Hy. rewrite G. apply (types_noword K vtkType2 old m1 w x y); assumption.
  - intros w' Hw'. rewrite G. rewrite types_word; [|exact Hw|destruct w'; [reflexivity|]; cbn in Hw'; apply andb_true_iff in Hw'; tauto].
    unfold xTypes. rewrite outN by (apply Out_space; exact Hw'). reflexivity.
  - intros codes1 codes2 z Ec. rewrite G. rewrite types_word by (exact Hw || reflexivity).
    change (str " ") with [blank] in *. unfold count in *. cbn [app] in *. rewrite L1 in *. rewrite LC in *. unfold typeLines in *.
    rewrite Ec, flat_map_app, <- app_assoc in H.
    destruct (types_cut K vtkType2 codes1 codes2 old (length rows) z (flat_map (fun c => putN c ++ [nl]) codes2 ++ [nl]) ty s) as (t' & s' & E & L & F).
    + rewrite <- LC, Ec. apply app_length.
    + exact SR.
    + intros c Hc. apply HC. rewrite Ec. apply in_or_app. left. exact Hc.
    + exact H.
    + rewrite E. exists t'. auto.
Qed.
Print Assumptions C83_finding_types2.
Theorem C83_finding_types3 : forall C (K : fp C) name (vs : list (C * C * C)) rows total codes reserve m old m' types, ~ In nl name -> length name < 1024 ->
  (N.of_nat (length vs) < 2 ^ 64)%N -> (N.of_nat (length rows) < 2 ^ 64)%N -> (total < 2 ^ 128)%N -> (forall r, In r rows -> small r) ->
  length codes = length rows -> (forall c, In c codes -> (c < 2 ^ 31)%N) ->
  let file := points3Text K name vs ++ str "CELLS" ++ cellRows rows total in
  readVTK3 K reserve (file ++ str "CELL_TYPES" ++ str " " ++ count codes ++ [nl] ++ typeLines codes ++ [nl]) m old = Ok (m', types) ->
  (forall x y, x ++ y = str "CELL_TYPES" -> y <> [] -> readVTK3 K reserve (file ++ x) m old = Ok (m', old)) /\
  (forall w, all_space w = true -> readVTK3 K reserve (file ++ str "CELL_TYPES" ++ w) m old = UB) /\
  (forall codes1 codes2 z, codes = codes1 ++ codes2 -> exists types',
     readVTK3 K reserve (file ++ str "CELL_TYPES" ++ str " " ++ count codes ++ [nl] ++ typeLines codes1 ++ z) m old = Ok (m', types') /\
     length types' = length rows /\ firstn (length codes1) types' = firstn (length codes1) types).
Proof.
  intros C K name vs rows total codes reserve m old m' types N1 N2 SV SR ST HS LC HC file H.
  set (m0 := mkMesh (m_dim m) (map (map3 (reread K)) vs) (m_mid (clear m)) [] [] (m_bcells (clear m))).
  assert (G : exists w m1, all_space w = true /\ length (m_cells m1) = length rows /\
    (forall r, readVTK3 K reserve (file ++ r) m old = after_cells K vtkType3 (str "CELLS") old (m1, mkI (w ++ r) false))).
  { assert (S : forall r, readVTK3 K reserve (file ++ r) m old = (b <- (r0 <- xCells3Loop (charOps K) reserve (repeat INVALID (length rows)) 0 (nth 0 (m_mid (clear m)) []) [] [] [] (mkI (flat_map putRow rows ++ nl :: r) false) ;;
      let '(bs, ed, F, s') := r0 in Ok (mkMesh (m_dim m) (map (map3 (reread K)) vs) [ed] F bs (m_bcells (clear m)), s')) ;; after_cells K vtkType3 (str "CELLS") old b)).
    { intros r. unfold file, cellRows, count. change (str " ") with [blank]. repeat (rewrite <- !app_assoc; cbn [app]). rewrite read_upto3 by (assumption || reflexivity).
      unfold xCells3. rewrite rdN_blank by (assumption || reflexivity). cbn [bind fst snd m_cells m_faces ign charOps m_dim m_verts m_mid m_bcells]. rewrite vresize_nil, Nat2N.id. unfold ignore. cbn [failed chars].
      rewrite total_line by exact ST. reflexivity. }
    pose proof H as H0. rewrite S in H0. apply bind_ok in H0 as ([m1 s1] & H0 & _). apply bind_ok in H0 as ([[[bs ed] F] s'] & H0 & E). injection E as <- <-.
    destruct (cells3_app K reserve rows (repeat INVALID (length rows)) _ _ _ _ _ [] (nl :: str "CELL_TYPES" ++ str " " ++ count codes ++ [nl] ++ typeLines codes ++ [nl]) bs ed F s' (repeat_length _ _) eq_refl HS H0) as (w & Hw & CA).
    exists (w ++ [nl]), (mkMesh (m_dim m) (map (map3 (reread K)) vs) [ed] F bs (m_bcells (clear m))).
    split; [rewrite all_space_app, Hw; reflexivity|]. split; [cbn [m_cells]; rewrite (cells3_length K _ _ _ _ _ _ _ _ _ _ _ _ H0); apply repeat_length|].
    intros r. rewrite S. specialize (CA (nl :: r)). cbn [app] in CA. rewrite CA. cbn [bind]. rewrite <- app_assoc. reflexivity. }
  destruct G as (w & m1 & Hw & L1 & G). rewrite G in H. rewrite types_word in H by (exact Hw || reflexivity). apply bind_ok in H as ([ty s] & H & E). cbn [fst] in E. injection E as <- <-.
  split; [|split].
  - intros x y E Hy. rewrite G. apply (types_noword K vtkType3 old m1 w x y); assumption.
  - intros w' Hw'. rewrite G. rewrite types_word; [|exact Hw|destruct w'; [reflexivity|]; cbn in Hw'; apply andb_true_iff in Hw'; tauto].
    unfold xTypes. rewrite outN by (apply Out_space; exact Hw'). reflexivity.
  - intros codes1 codes2 z Ec. rewrite G. rewrite types_word by (exact Hw || reflexivity).
    change (str " ") with [blank] in *. unfold count in *. cbn [app] in *. rewrite L1 in *. rewrite LC in *. unfold typeLines in *.
    rewrite Ec, flat_map_app, <- app_assoc in H.
    destruct (types_cut K vtkType3 codes1 codes2 old (length rows) z (flat_map (fun c => putN c ++ [nl]) codes2 ++ [nl]) ty s) as (t' & s' & E & L & F).
    + rewrite <- LC, Ec. apply app_length.
    + exact SR.
    + intros c Hc. apply HC. rewrite Ec. apply in_or_app. left. exact Hc.
    + exact H.
    + rewrite E. exists t'. auto.
Qed.
Print Assumptions C83_finding_types3.

(** The writers write files of this layout. *)
Lemma mapM_length {A B} (f : A -> outcome B) l : forall r, mapM f l = Ok r -> length r = length l.
Proof.
  induction l as [|a l IH]; intros r H; cbn [mapM] in H; [injection H as <-; reflexivity|].
  apply bind_ok in H as (b & _ & H). apply bind_ok in H as (bs & E & H). injection H as <-. cbn [length]. rewrite (IH _ E). reflexivity.
Qed.
Lemma typesText_inv conv ts ty : typesText conv ts = Ok ty -> exists codes, length codes = length ts /\ Forall2 (fun t n => conv t = Some n) ts codes /\ ty = typeLines codes.
Proof.
  unfold typesText. intros H. apply bind_ok in H as (cs & E & H). injection H as <-. exists cs. split; [apply (mapM_length _ _ _ E)|]. split; [|reflexivity].
  apply mapM_ok in E. eapply Forall2_mono; [|exact E]. intros t n. cbv beta. destruct (conv t); [|discriminate]. intros H. injection H as <-. reflexivity.
Qed.
Theorem C83_layout2 : forall C (K : fp C) name (m : Mesh (C * C)) types s, writeVTK2text K m types = Ok s -> length types = length (m_cells m) ->
  exists rows total codes, length rows = length (m_cells m) /\ length codes = length rows /\ (forall c, In c codes -> (c < 2 ^ 31)%N) /\
    headerText name ++ s = points2Text K name (m_verts m) ++ str "CELLS" ++ cellRows rows total ++ str "CELL_TYPES" ++ str " " ++ count codes ++ [nl] ++ typeLines codes ++ [nl].
Proof.
  intros C K name m types s H LT. unfold writeVTK2text in H. apply bind_ok in H as ([rows total] & E & H). unfold indexMesh2 in E. apply bind_ok in E as (cv & E & E').
  injection E' as <- <-. apply mapM_length in E. unfold seqN in E. rewrite map_length, seq_length in E.
  unfold emitVTK2text in H. apply bind_ok in H as (ty & Ty & H). apply typesText_inv in Ty as (codes & LC & F & ->). injection H as <-. cbn [fst snd].
  exists cv, (countWritten cv), codes. split; [exact E|]. split; [congruence|]. split; [apply (codes_small vtkCode2 types codes code2_small F)|].
  unfold points2Text, cellRows, cellsText, count. rewrite E, LC, LT. change (str "CELLS ") with (str "CELLS" ++ str " "). change (str "CELL_TYPES ") with (str "CELL_TYPES" ++ str " "). change [blank] with (str " ").
  repeat rewrite <- app_assoc. reflexivity.
Qed.
Print Assumptions C83_layout2.
Theorem C83_layout3 : forall C (K : fp C) name ori ccenter fcenter (m : Mesh (C * C * C)) types s, writeVTK3text K ori ccenter fcenter m types = Ok s ->
  exists vs rows total codes, length codes = length rows /\ (forall c, In c codes -> (c < 2 ^ 31)%N) /\ firstn (length (m_verts m)) vs = m_verts m /\
    headerText name ++ s = points3Text K name vs ++ str "CELLS" ++ cellRows rows total ++ str "CELL_TYPES" ++ str " " ++ count codes ++ [nl] ++ typeLines codes ++ [nl].
Proof.
  intros C K name ori ccenter fcenter m types s H. unfold writeVTK3text in H. apply bind_ok in H as (t & _ & H).
  unfold emitVTK3text in H. apply bind_ok in H as (ty & Ty & H). apply typesText_inv in Ty as (codes & LC & F & ->). injection H as <-. rewrite map_length in LC.
  exists (m_verts m ++ t_verts t), (map fst (t_cells t)), (countWritten (map fst (t_cells t))), codes. split; [rewrite map_length; exact LC|].
  split; [apply (codes_small vtkCode3 _ codes code3_small F)|]. split; [rewrite firstn_app, Nat.sub_diag, firstn_all; apply app_nil_r|].
  unfold points3Text, cellRows, cellsText, count. rewrite map_length, LC, app_length, flat_map_app. change (str "CELLS ") with (str "CELLS" ++ str " "). change (str "CELL_TYPES ") with (str "CELL_TYPES" ++ str " "). change [blank] with (str " ").
  repeat rewrite <- app_assoc. reflexivity.
Qed.
Print Assumptions C83_layout3.

(** * Instances *)
(** The two triangles of C81: cut in the header, before POINTS, among the points, among the cells, before the types,
    and between the types. Lengths in characters. *)
Definition triFile : text :=
  match writeVTK2text exactQ triQ [TRIANGLE; TRIANGLE] with Ok s => headerText (str "two triangles") ++ s | _ => [] end.
Definition cutAt (k : nat) := readVTK2 exactQ (firstn k triFile) (emptyMesh 2) [].
Definition sizes (r : outcome (Mesh (Q * Q) * list etype)) : outcome (nat * nat * nat * list etype) :=
  x <- r ;; Ok (length (m_verts (fst x)), length (m_faces (fst x)), length (m_cells (fst x)), snd x).
Example C83_instance :
  length triFile = 181 /\ sizes (cutAt 181) = Ok (4, 5, 2, [TRIANGLE; TRIANGLE]) /\
  (forall k, k < 72 -> cutAt k = Throw) /\
  (forall k, 72 <= k < 79 -> sizes (cutAt k) = Ok (0, 0, 0, [])) /\
  (forall k, 79 <= k < 81 -> cutAt k = UB) /\
  (forall k, 81 <= k < 141 -> sizes (cutAt k) = Ok (4, 0, 0, [])) /\
  (forall k, 141 <= k < 155 -> cutAt k = UB) /\
  sizes (cutAt 157) = Ok (4, 4, 2, []) /\ sizes (cutAt 160) = Ok (4, 3, 2, []) /\   (* in the last row: a wrong mesh *)
  (forall k, 161 <= k < 173 -> sizes (cutAt k) = Ok (4, 5, 2, [])) /\
  sizes (cutAt 175) = Ok (4, 5, 2, [Tdefault; Tdefault]) /\ sizes (cutAt 178) = Ok (4, 5, 2, [TRIANGLE; Tdefault]).
Proof.
  assert (R : forall (f : nat -> bool) a b, forallb f (seq a (b - a)) = true -> forall k, a <= k < b -> f k = true)
    by (intros f a b H k Hk; rewrite forallb_forall in H; apply H; apply in_seq; lia).
  assert (T : forall k, 0 <= k < 72 -> (match cutAt k with Throw => true | _ => false end) = true) by (apply R; vm_compute; reflexivity).
  assert (U : forall k, 79 <= k < 81 -> (match cutAt k with UB => true | _ => false end) = true) by (apply R; vm_compute; reflexivity).
  assert (U2 : forall k, 141 <= k < 155 -> (match cutAt k with UB => true | _ => false end) = true) by (apply R; vm_compute; reflexivity).
  split; [vm_compute; reflexivity|]. split; [vm_compute; reflexivity|].
  split; [intros k Hk; specialize (T k ltac:(lia)); destruct (cutAt k); (discriminate T || reflexivity)|].
  assert (G : forall (r : outcome (nat * nat * nat * list etype)) x, (match r with Ok (a, b, c, []) => (a =? fst (fst x)) && (b =? snd (fst x)) && (c =? snd x) | _ => false end) = true ->
    r = Ok (fst (fst x), snd (fst x), snd x, [])).
  { intros [[[[a b] c] [|l0 l]]| | |] [[x y] z] H; try discriminate H. cbn [fst snd] in *. rewrite !andb_true_iff, !Nat.eqb_eq in H. destruct H as [[-> ->] ->]. reflexivity. }
  split; [intros k Hk; apply (G _ (0, 0, 0)); revert k Hk; apply R; vm_compute; reflexivity|].
  split; [intros k Hk; specialize (U k Hk); destruct (cutAt k); (discriminate U || reflexivity)|].
  split; [intros k Hk; apply (G _ (4, 0, 0)); revert k Hk; apply R; vm_compute; reflexivity|].
  split; [intros k Hk; specialize (U2 k Hk); destruct (cutAt k); (discriminate U2 || reflexivity)|].
  split; [vm_compute; reflexivity|]. split; [vm_compute; reflexivity|].
  split; [intros k Hk; apply (G _ (4, 5, 2)); revert k Hk; apply R; vm_compute; reflexivity|].
  split; vm_compute; reflexivity.
Qed.
Print Assumptions C83_instance.

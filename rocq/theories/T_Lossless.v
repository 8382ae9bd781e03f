(** C110: files of numbers with at most six digits lose nothing. Exact real arithmetic on the numbers of both meshes. *)
From Coq Require Lqa Qround.
From Coq Require Import String Ascii Reals Lra QArith Qabs Qreals Permutation List.
Import ListNotations.
From Verif Require Import P_Base M_Conn S_Conn M_Index M_Mesh M_Apply M_Connections S_Mesh P_Apply M_Vec S_Vec P_Vec M_Geom S_Geom P_Geom P_Centers T_Centers S_Polygon P_Polygon P_Convex P_Convex3
  P_Volume T_Measure2 T_Volume M_Object T_Object T_ConvexVTK M_Text M_Chars M_Stream S_Stream M_FileText S_FileText M_FPMA S_FPMA P_FPMA P_RoundTrip P_FileText P_FPMAText M_VTK S_VTK M_VTKWrite T_FileText T_VTKText
  S_Near P_Near P_NearFile T_Near T_NearFile P_Normals T_Normals P_GS3 S_Flux P_Flux T_Flux S_Convex T_Convex3 T_GradConvex T_VTKWrite T_FPMA T_ConvexFile T_Gauss3 S_Lossless Ex_Mesh Ex_Geom.
Local Open Scope nat_scope.
Local Open Scope list_scope.
Local Open Scope R_scope.

(** A type that reads the nearest value keeps its own values (and zero, if it has it), so [keeps] below may be replaced by [reads_nearest]. *)
Theorem C110_nearest : forall C (K : fp C), reads_nearest K ->
  keeps K /\ ((exists c, (val K c == 0)%Q) -> (val K (near K 0) == 0)%Q).
Proof.
  intros C K H. assert (HK : keeps K).
  { intros c q E. specialize (H q c). assert (Z : (Qabs (val K c - q) == 0)%Q).
    { setoid_replace (val K c - q)%Q with 0%Q by (rewrite E; ring). reflexivity. }
    rewrite Z in H. apply Qabs_Qle_condition in H as [Z1 Z2].
    assert (Z3 : (val K (near K q) <= q)%Q) by Lqa.lra. assert (Z4 : (q <= val K (near K q))%Q) by Lqa.lra. apply Qle_antisym; rewrite <- E; assumption. }
  split; [exact HK|]. intros (c & Hc). rewrite (HK c 0%Q) by (symmetry; exact Hc). exact Hc.
Qed.
Print Assumptions C110_nearest.

Lemma short_copy {C} (K : fp C) c c' : keeps K -> short_number K c -> six_digit_copy K c c' -> Q2R (val K c') = Q2R (val K c).
Proof.
  intros HK HS (q & [_ HN] & _ & ->). specialize (HN _ HS). apply Qeq_eqR, HK.
  assert (Z : (Qabs (q - val K c) <= 0)%Q).
  { eapply Qle_trans; [exact HN|]. setoid_replace (val K c - val K c)%Q with 0%Q by ring. apply Qle_refl. }
  apply Qabs_Qle_condition in Z as [Z1 Z2]. apply Qle_antisym.
  - apply Qle_minus_iff. apply Qle_minus_iff in Z2. eapply Qle_trans; [exact Z2|]. apply Qle_lteq. right. ring.
  - apply Qle_minus_iff in Z1. exact Z1.
Qed.
Lemma short_copy2 {C} (K : fp C) p p' : keeps K -> short_number K (fst p) -> short_number K (snd p) -> copy2 K p p' -> real2 K p' = real2 K p.
Proof. intros HK H1 H2 [C1 C2]. unfold real2. rewrite (short_copy K _ _ HK H1 C1), (short_copy K _ _ HK H2 C2). reflexivity. Qed.
Lemma short_copy3 {C} (K : fp C) p p' : keeps K -> short_number K (fst (fst p)) -> short_number K (snd (fst p)) -> short_number K (snd p) -> copy3 K p p' -> real3 K p' = real3 K p.
Proof. intros HK H1 H2 H3 (C1 & C2 & C3). unfold real3. rewrite (short_copy K _ _ HK H1 C1), (short_copy K _ _ HK H2 C2), (short_copy K _ _ HK H3 C3). reflexivity. Qed.

Lemma rabs0 x y : Rabs (x - y) <= 0 -> x = y.
Proof. intros H. destruct (Rle_dec 0 (x - y)) as [Q|Q]; [rewrite Rabs_pos_eq in H by exact Q; lra|rewrite Rabs_left in H by lra; lra]. Qed.
Lemma near_refl p : near_point 0 p p.
Proof. intros i. rewrite Rminus_diag_eq by reflexivity. rewrite Rabs_R0. lra. Qed.
Lemma near0_eq n p p' : length p = n -> length p' = n -> near_point 0 p p' -> p' = p.
Proof.
  intros L L' H. apply (nth_ext _ _ 0 0); [congruence|]. intros i _. specialize (H i).
  destruct (Rle_dec 0 (nth i p' 0 - nth i p 0)) as [Q|Q]; [rewrite Rabs_pos_eq in H by exact Q; lra|rewrite Rabs_left in H by lra; lra].
Qed.
Lemma near0_list n ps ps' : (forall p, In p ps -> length p = n) -> (forall p, In p ps' -> length p = n) -> Forall2 (near_point 0) ps ps' -> ps' = ps.
Proof.
  intros L L' F. induction F as [|p p' ps ps' H F IH]; [reflexivity|]. f_equal; [apply (near0_eq n); auto using in_eq|].
  apply IH; intros; [apply L|apply L']; right; assumption.
Qed.
(** Every finite set of points fits into a box. *)
Lemma point_bound (p : point) : exists b, forall i, Rabs (nth i p 0) <= b.
Proof.
  induction p as [|x p (b & IH)]; [exists 0; intros [|i]; cbn [nth]; rewrite Rabs_R0; lra|].
  exists (Rmax (Rabs x) b). intros [|i]; cbn [nth]; [apply Rmax_l|eapply Rle_trans; [apply IH|apply Rmax_r]].
Qed.
Lemma points_bound (ps : list point) : exists b, forall p i, In p ps -> Rabs (nth i p 0) <= b.
Proof.
  induction ps as [|p ps (b & IH)]; [exists 0; intros p i []|]. destruct (point_bound p) as (b' & H).
  exists (Rmax b' b). intros q i [<-|Hq]; [eapply Rle_trans; [apply H|apply Rmax_l]|eapply Rle_trans; [apply IH; exact Hq|apply Rmax_r]].
Qed.
Lemma width_ex ps : exists w, width w ps.
Proof.
  destruct (points_bound ps) as (b & H). exists (2 * b). intros p q i Hp Hq. pose proof (H p i Hp). pose proof (H q i Hq).
  unfold Rminus. eapply Rle_trans; [apply Rabs_triang|]. rewrite Rabs_Ropp. lra.
Qed.
(** The computed centres are points of the mesh dimension. *)
Lemma centers_len (m : Mesh point) cs : geo_mesh m -> no_empty m -> computeCenters (K := numR) false m = Ok cs -> forall t p, In t cs -> In p t -> length p = m_dim m.
Proof.
  intros G HN E t p Ht Hp. destruct (C46_centers m G HN) as (cs0 & E0 & CS & _). assert (Q : cs0 = cs) by (pose proof (eq_trans (eq_sym E0) E) as Q; injection Q; auto). subst cs0.
  apply In_nth_error in Ht as [k Hk]. exact (proj2 (cs_tab _ _ CS k t Hk) p Hp).
Qed.

(** C110. A planar mesh whose coordinates have at most six digits, written to a VTK text file and read: the computed centres and
    areas of the cells are exactly what they were. *)
Theorem C110_vtk2 : forall C (K : fp C) (m : Mesh (C * C)) types codes name,
  keeps K -> (forall p, In p (m_verts m) -> short_number K (fst p) /\ short_number K (snd p)) ->
  (val K (near K 0) == 0)%Q -> wf_mesh m -> m_dim m = 2%nat ->
  (forall c, (c < N.of_nat (length (m_cells m)))%N -> exists es vs, ring m c es /\ bounds (edges2 m) es vs) ->
  (forall e e' a b, joins (edges2 m) e a b -> joins (edges2 m) e' a b -> e = e') ->
  (N.of_nat (length (m_verts m)) <= INVALID)%N -> (N.of_nat (length (m_cells m)) <= INVALID)%N -> (N.of_nat (2 * length (m_faces m)) <= INVALID)%N ->
  Forall2 (fun t n => vtkCode2 t = Some n) types codes -> length types = length (m_cells m) ->
  ~ In nl name -> (length name < 1024)%nat ->
  exists s m', writeVTK2text K m types = Ok s /\ (forall after, readVTK2 K (headerText name ++ s ++ after) (emptyMesh 2) [] = Ok (m', types)) /\
  map (real2 K) (m_verts m') = map (real2 K) (m_verts m) /\
  exists ec cc ls As ec' ls',
    computeCenters (K := numR) false (with_points (real2 K) m) = Ok [ec; cc] /\ computeMeasures2 (K := numR) (with_points (real2 K) m) cc = Ok (ls, As) /\
    computeCenters (K := numR) false (with_points (real2 K) m') = Ok [ec'; cc] /\ computeMeasures2 (K := numR) (with_points (real2 K) m') cc = Ok (ls', As) /\
    length cc = length (m_cells m) /\ length As = length (m_cells m).
Proof.
  intros C K m types codes name HK HS Z W D Cells Uniq SV SC SF Types LT N1 N2.
  assert (Near : forall p p', In p (m_verts m) -> copy2 K p p' -> real2 K p' = real2 K p).
  { intros p p' Hp Hc. destruct (HS p Hp). apply short_copy2; assumption. }
  destruct (vtk2_near_copy C K m types codes name 0 Z W D Cells Uniq SV SC SF Types LT N1 N2) as (s & m' & Es & Er & ec & cc & ls & As & ec' & cc' & ls' & As' & E & EM & E' & EM' & Lc & Lc' & LA & LA' & HN & HA).
  { intros p p' Hp Hc. rewrite (Near p p' Hp Hc). apply near_refl. }
  assert (HV : forall f v, In f (m_faces m) -> In v (f_subs f) -> (v < N.of_nat (length (m_verts m)))%N).
  { intros f v Hf Hv. apply In_nth_error in Hf as [e He]. assert (Hs : subs m 1 (N.of_nat e) = Ok (f_subs f)).
    { unfold subs. rewrite D. cbn [Nat.sub Nat.eqb]. assert (Q : vat (m_faces m) (N.of_nat e) = Ok f) by (apply vat_ok; rewrite Nat2N.id; exact He). rewrite Q. reflexivity. }
    assert (H1 : (1 <= 1 < m_dim m)%nat) by (rewrite D; lia).
    destruct (wf_subs _ W 1 _ _ H1 Hs) as (_ & R & _). specialize (R v Hv). exact R. }
  destruct (C81_vtk2_characters C K m types codes name Z Cells Uniq HV SV SC SF Types LT D N1 N2) as (s2 & m2 & Es2 & Er2 & W' & D' & V' & L' & _ & _).
  assert (s2 = s) by congruence. subst s2. assert (m2 = m') by (specialize (Er []); specialize (Er2 []); congruence). subst m2.
  exists s, m'. split; [exact Es|]. split; [exact Er|]. split.
  { clear -V' Near. induction V' as [|p p' l l' H F IH]; [reflexivity|]. cbn [map]. rewrite (Near p p' (or_introl eq_refl) H). f_equal. apply IH. intros; apply Near; [right|]; assumption. }
  set (M := with_points (real2 K) m) in *. set (M' := with_points (real2 K) m') in *.
  assert (G : geo_mesh M) by (apply (wp_geo _ m 2); auto). assert (G' : geo_mesh M') by (apply (wp_geo _ m' 2); auto).
  assert (DM : m_dim M = 2%nat) by exact D. assert (DM' : m_dim M' = 2%nat) by exact D'.
  assert (HN1 : no_empty M) by (intros k i js Hk; rewrite DM in Hk; lia). assert (HN2 : no_empty M') by (intros k i js Hk; rewrite DM' in Hk; lia).
  assert (Ecc : cc' = cc).
  { apply (near0_list 2); [| |exact HN]; intros p Hp; [rewrite <- DM; apply (centers_len M _ G HN1 E cc)|rewrite <- DM'; apply (centers_len M' _ G' HN2 E' cc')]; simpl; auto. }
  subst cc'. assert (EA : As' = As).
  { apply (nth_ext _ _ 0 0); [exact (eq_trans LA' (eq_sym LA))|]. intros i Hi.
    assert (Hi' : (i < length (m_cells m))%nat) by (rewrite <- LA'; exact Hi). clear Hi. rename Hi' into Hi.
    assert (Hi2 : (N.of_nat i < N.of_nat (length (m_cells m)))%N) by lia. destruct (Cells _ Hi2) as (es & vs & R & Bd).
    destruct (width_ex (map (vpoint M) vs)) as (w & HW).
    assert (A1 : nth_error As (N.to_nat (N.of_nat i)) = Some (nth i As 0)) by (rewrite Nat2N.id; apply nth_error_nth'; rewrite LA; exact Hi).
    assert (A2 : nth_error As' (N.to_nat (N.of_nat i)) = Some (nth i As' 0)) by (rewrite Nat2N.id; apply nth_error_nth'; rewrite LA'; exact Hi).
    pose proof (HA _ es vs w _ _ R Bd HW A1 A2) as Q. apply rabs0. eapply Rle_trans; [exact Q|]. right. ring. }
  subst As'. exists ec, cc, ls, As, ec', ls'. do 5 (split; [assumption|]). assumption.
Qed.
Print Assumptions C110_vtk2.

Lemma N_lt_nat v n : (v < N.of_nat n)%N -> (N.to_nat v < n)%nat.
Proof. lia. Qed.
(** * FPMA files *)
(** Every edge of a mesh read from a file written by FPMAMeshWriter belongs to a face. *)
Lemma read_covered C (K : fp C) (m : Mesh (C * C * C)) reserve s m' : wf_mesh m -> m_dim m = 3%nat ->
  (forall f, In f (m_faces m) -> exists vs, bounds (mesh_edges m) (f_subs f) vs) ->
  (N.of_nat (length (m_faces m)) <= INVALID)%N -> (N.of_nat (length (m_cells m)) <= INVALID)%N -> (N.of_nat (length (m_verts m)) < 2 ^ 64)%N ->
  (reserve = 0%nat \/ forall f, In f (m_faces m) -> (length (f_subs f) <= reserve)%nat) ->
  writeFPMAtext K m = Ok s -> readFPMA K reserve s (emptyMesh 3) = Ok m' ->
  forall i, (i < length (mesh_edges m'))%nat -> exists f, In f (m_faces m') /\ In (N.of_nat i) (f_subs f).
Proof.
  intros W D B SF SC SV HR Hw Hr.
  destruct (write_text K m W D B SF SC SV) as (ts & s' & Et & Es & Sh). rewrite Hw in Es. injection Es as <-.
  destruct (write_spec m W D B) as (fv & cf & Ew & HF & L & H). rewrite Et in Ew. injection Ew as ->.
  assert (FW : file_wf (mkFile (m_verts m) fv cf)) by (apply written_file_ok; assumption).
  assert (HR' : reserve = 0%nat \/ forall p, In p fv -> (length p <= reserve)%nat).
  { destruct HR as [?|HR]; [auto|right]. intros p Hp. apply In_nth_error in Hp as [i Hi].
    pose proof (proj1 (Forall2_nth _ _ _) HF) as [LF HF'].
    destruct (nth_error (m_faces m) i) as [f|] eqn:Ef.
    - destruct (HF' i f p Ef Hi) as (_ & es & Pm & _ & Ls & _).
      rewrite <- Ls, <- (Permutation_length Pm). apply HR. eapply nth_error_In; eassumption.
    - apply nth_error_None in Ef. assert (i < length fv)%nat by (apply nth_error_Some; congruence). lia. }
  destruct (load_spec reserve (mkFile (m_verts m) fv cf) [Tn 0%N] (fw_ok _ FW) HR') as (m2 & edges & E2 & D2 & Ev & Em & _ & F2 & Un & Cov & _).
  pose proof (char_FPMA K (reread K) reserve _ _ _ _ Sh E2) as E3. rewrite Hr in E3. injection E3 as ->.
  intros i Hi. change (mesh_edges (with_verts m2 (map (map3 (reread K)) (m_verts m2)))) with (mesh_edges m2) in Hi.
  assert (Em' : mesh_edges m2 = edges) by (unfold mesh_edges; rewrite Em; reflexivity). rewrite Em' in Hi. apply (Cov i Hi).
Qed.

Lemma Forall2_nth_r {A B} (R : A -> B -> Prop) l k i y : Forall2 R l k -> nth_error k i = Some y -> exists x, nth_error l i = Some x /\ R x y.
Proof. intros F. revert i. induction F as [|a b l k H F IH]; intros [|i] E; try discriminate; [injection E as <-; exists a; split; [reflexivity|exact H]|apply (IH i E)]. Qed.
(** Two sets of segments that are the sides of the same polygon. *)
Lemma same_sides (M M' : Mesh point) js js' segs segs' ds e a b :
  Forall2 (fun f e => edge_points M f (fst e) (snd e)) js segs -> traces segs ds ->
  Forall2 (fun f e => edge_points M' f (fst e) (snd e)) js' segs' -> traces segs' ds ->
  In e js' -> edge_points M' e a b -> (In (a, b) ds \/ In (b, a) ds) /\ exists e1, In e1 js /\ (edge_points M e1 a b \/ edge_points M e1 b a).
Proof.
  intros F (d1 & P1 & T1) F' (d2 & P2 & T2) He Hab.
  apply In_nth_error in He as [k Hk]. destruct (Forall2_nth_l _ _ _ _ _ F' Hk) as (sg & Hs & Hp). destruct (edge_points_det _ _ _ _ _ _ Hab Hp) as [-> ->].
  destruct (Forall2_nth_l _ _ _ _ _ T2 Hs) as (d & Hd & Hdd). apply nth_error_In in Hd. apply (Permutation_in _ (Permutation_sym P2)) in Hd. split.
  - destruct Hdd as [-> | ->]; [left|right]; [destruct sg|]; exact Hd.
  - apply (Permutation_in _ P1) in Hd. apply In_nth_error in Hd as [q Hq]. destruct (Forall2_nth_r _ _ _ _ _ T1 Hq) as (sg1 & Hs1 & H1).
    destruct (Forall2_nth_r _ _ _ _ _ F Hs1) as (e1 & He1 & Hp1). exists e1. split; [eapply nth_error_In; exact He1|].
    destruct sg as [x y], sg1 as [x1 y1]. unfold rev_edge in *. cbn [fst snd] in *. destruct H1 as [-> | ->]; destruct Hdd as [Z|Z]; injection Z as -> ->; auto.
Qed.
Lemma unit_of (w : point) : length w = 3%nat -> sprod w w <> 0 -> exists n t, length n = 3%nat /\ sprod n n = 1 /\ forall p, sprod n p = t * sprod w p.
Proof.
  intros L Z. pose proof (sprod_pos w Z) as Q.
  exists (vscale (K := numR) w (/ sqrt (sprod w w))), (/ sqrt (sprod w w)). split; [rewrite vscale_length; exact L|]. split; [|intros p; apply sprod_vscale_l].
  assert (H : / sqrt (sprod w w) * (/ sqrt (sprod w w) * sprod w w) = 1).
  { rewrite <- (sqrt_sqrt (sprod w w)) at 3 by lra. field. intros Q0. apply sqrt_eq_0 in Q0; lra. }
  etransitivity; [apply sprod_vscale_l|]. etransitivity; [apply f_equal; etransitivity; [apply sprod_comm|apply sprod_vscale_l]|]. exact H.
Qed.

(** C110. A spatial mesh whose coordinates have at most six digits, written to an FPMA text file and read: the computed centres of
    faces and cells are exactly what they were, and so are the areas of the faces, if no triangle of an edge and its face centre
    degenerates; if the faces are planar, also the volumes of the cells. (Of a face that is not planar the code takes the height
    over the first edge, and the copy may list the edges in another order.) *)
Theorem C110_fpma : forall C (K : fp C) (m : Mesh (C * C * C)) reserve,
  keeps K -> (forall p, In p (m_verts m) -> short_number K (fst (fst p)) /\ short_number K (snd (fst p)) /\ short_number K (snd p)) ->
  wf_mesh m -> m_dim m = 3%nat ->
  (forall f, In f (m_faces m) -> exists vs, bounds (mesh_edges m) (f_subs f) vs) ->
  (N.of_nat (length (m_faces m)) <= INVALID)%N -> (N.of_nat (length (m_cells m)) <= INVALID)%N -> (N.of_nat (length (m_verts m)) < 2 ^ 64)%N ->
  (reserve = 0%nat \/ forall f, In f (m_faces m) -> (length (f_subs f) <= reserve)%nat) ->
  exists s m', writeFPMAtext K m = Ok s /\ readFPMA K reserve s (emptyMesh 3) = Ok m' /\
  map (real3 K) (m_verts m') = map (real3 K) (m_verts m) /\
  exists ec fc cc ec',
    computeCenters (K := numR) false (with_points (real3 K) m) = Ok [ec; fc; cc] /\
    computeCenters (K := numR) false (with_points (real3 K) m') = Ok [ec'; fc; cc] /\
    length fc = length (m_faces m) /\ length cc = length (m_cells m) /\
    ((forall e a b, edge_points (with_points (real3 K) m) e a b -> a <> b) -> sturdy_faces (with_points (real3 K) m) fc ->
     exists ls Fs Vs ls' Vs', computeMeasures3 (K := numR) (with_points (real3 K) m) cc fc = Ok (ls, Fs, Vs) /\
       computeMeasures3 (K := numR) (with_points (real3 K) m') cc fc = Ok (ls', Fs, Vs') /\
       length Fs = length (m_faces m) /\ length Vs = length (m_cells m) /\
       (flat_faces (with_points (real3 K) m) (mesh_edges m) -> Vs' = Vs)).
Proof.
  intros C K m reserve HK HS W D HB SF SC SV HR.
  assert (Near : forall p p', In p (m_verts m) -> copy3 K p p' -> real3 K p' = real3 K p).
  { intros p p' Hp Hc. destruct (HS p Hp) as (H1 & H2 & H3). apply short_copy3; assumption. }
  destruct (fpma_near_copy C K m reserve 0 W D HB SF SC SV HR) as (s & m' & Es & Er & ec & fc & cc & ec' & fc' & cc' & E & E' & Lf & Lc & HNf & HNc & HM).
  { intros p p' Hp Hc. rewrite (Near p p' Hp Hc). apply near_refl. }
  destruct (C80_fpma_characters C K m reserve W D HB SF SC SV HR) as (s2 & m2 & Es2 & Er2 & W' & D' & V' & LF' & LC' & R' & P' & _).
  assert (s2 = s) by congruence. subst s2. assert (m2 = m') by congruence. subst m2.
  pose proof (read_covered C K m reserve s m' W D HB SF SC SV HR Es Er) as Cov.
  assert (EV : map (real3 K) (m_verts m') = map (real3 K) (m_verts m)).
  { clear -V' Near. induction V' as [|p p' l l' H F IH]; [reflexivity|]. cbn [map]. rewrite (Near p p' (or_introl eq_refl) H). f_equal. apply IH. intros; apply Near; [right|]; assumption. }
  assert (HB' : forall f, In f (m_faces m') -> exists vs, bounds (mesh_edges m') (f_subs f) vs).
  { intros f' Hf'. apply In_nth_error in Hf' as [i Hi]. assert (i < length (m_faces m'))%nat by (apply nth_error_Some; congruence).
    destruct (nth_error (m_faces m) i) as [f|] eqn:Ef; [|apply nth_error_None in Ef; lia].
    destruct (HB f (nth_error_In _ _ Ef)) as (vs & Hvs). exists vs. apply (P' i f f' vs Ef Hi). exact Hvs. }
  exists s, m'. split; [exact Es|]. split; [exact Er|]. split; [exact EV|].
  pose proof (three_no_empty K m D HB) as HN. pose proof (three_no_empty K m' D' HB') as HN'.
  set (M := with_points (real3 K) m) in *. set (M' := with_points (real3 K) m') in *.
  assert (G : geo_mesh M) by (apply (wp_geo _ m 3); auto). assert (G' : geo_mesh M') by (apply (wp_geo _ m' 3); auto).
  assert (DM : m_dim M = 3%nat) by exact D. assert (DM' : m_dim M' = 3%nat) by exact D'.
  assert (VP : forall v, vpoint M' v = vpoint M v) by (intros v; unfold vpoint; cbn [M M' with_points m_verts]; rewrite EV; reflexivity).
  assert (Pf : forall p, In p fc -> length p = 3%nat) by (intros p Hp; rewrite <- DM; apply (centers_len M _ G HN E fc); simpl; auto).
  assert (Pc : forall p, In p cc -> length p = 3%nat) by (intros p Hp; rewrite <- DM; apply (centers_len M _ G HN E cc); simpl; auto).
  assert (Efc : fc' = fc) by (apply (near0_list 3); [exact Pf| |exact HNf]; intros p Hp; rewrite <- DM'; apply (centers_len M' _ G' HN' E' fc'); simpl; auto).
  assert (Ecc : cc' = cc) by (apply (near0_list 3); [exact Pc| |exact HNc]; intros p Hp; rewrite <- DM'; apply (centers_len M' _ G' HN' E' cc'); simpl; auto).
  subst fc' cc'. exists ec, fc, cc, ec'. do 4 (split; [assumption|]). intros HE HSt.
  destruct (C46_centers M G HN) as (cs & E2 & CS & _). assert (cs = [ec; fc; cc]) by (pose proof (eq_trans (eq_sym E2) E) as Q; injection Q; auto). subst cs.
  destruct (C46_centers M' G' HN') as (cs' & E2' & CS' & _). assert (cs' = [ec'; fc; cc]) by (pose proof (eq_trans (eq_sym E2') E') as Q; injection Q; auto). subst cs'.
  (* a face and its copy *)
  assert (Face : forall f face', nth_error (m_faces m') (N.to_nat f) = Some face' -> exists face vs c segs segs',
    nth_error (m_faces m) (N.to_nat f) = Some face /\ bounds (mesh_edges m) (f_subs face) vs /\ nth_error fc (N.to_nat f) = Some c /\
    is_mean 3 (map (vpoint M) vs) c /\
    Forall2 (fun f e => edge_points M f (fst e) (snd e)) (f_subs face) segs /\ traces segs (cycle_edges (map (vpoint M) vs)) /\
    Forall2 (fun f e => edge_points M' f (fst e) (snd e)) (f_subs face') segs' /\ traces segs' (cycle_edges (map (vpoint M) vs))).
  { intros f face' Hf'. assert (Hlt : (N.to_nat f < length (m_faces m))%nat) by (rewrite <- LF'; apply nth_error_Some; congruence).
    destruct (nth_error (m_faces m) (N.to_nat f)) as [face|] eqn:Ef; [|apply nth_error_None in Ef; lia].
    destruct (nth_error fc (N.to_nat f)) as [c|] eqn:Ec; [|apply nth_error_None in Ec; lia].
    destruct (HB face (nth_error_In _ _ Ef)) as (vs & Bd). pose proof (proj2 (P' _ _ _ vs Ef Hf') Bd) as Bd2.
    destruct (poly3 K m f face vs _ c W D CS Ef Bd Ec) as [Q1 (segs & Q2 & Q3)]. destruct (poly3 K m' f face' vs _ c W' D' CS' Hf' Bd2 Ec) as [_ (segs' & Q5 & Q6)].
    fold M M' in Q1, Q2, Q3, Q5, Q6. rewrite (map_ext _ _ VP) in Q6. exists face, vs, c, segs, segs'. splits; auto. }
  assert (M1 : measurable3 M fc).
  { split; [exact HE|]. intros f face e0 es a b c Hf Hs Hab Hc. apply (HSt f face e0 a b c Hf); auto. rewrite Hs. left. reflexivity. }
  assert (M1' : measurable3 M' fc).
  { split.
    - intros e a b Hab. assert (He : (N.to_nat e < length (mesh_edges m'))%nat).
      { destruct Hab as (i & j & Hs & _). apply subs_lt in Hs; [|rewrite DM'; lia]. unfold n_elems in Hs. rewrite DM' in Hs. cbn [Nat.eqb Nat.sub] in Hs. unfold mesh_edges. exact (N_lt_nat _ _ Hs). }
      destruct (Cov _ He) as (face' & Hin & He'). rewrite N2Nat.id in He'. apply In_nth_error in Hin as [k Hk]. rewrite <- (Nat2N.id k) in Hk.
      destruct (Face _ _ Hk) as (face & vs & c & segs & segs' & Hf & Bd & Hc & _ & F & T & F' & T').
      destruct (same_sides M M' _ _ _ _ _ _ _ _ F T F' T' He' Hab) as (_ & e1 & _ & [H|H]); [exact (HE _ _ _ H)|intros Q; exact (HE _ _ _ H (eq_sym Q))].
    - intros f face' e0 es a b c Hf' Hs Hab Hc.
      destruct (Face _ _ Hf') as (face & vs & c2 & segs & segs' & Hf & Bd & Hc2 & _ & F & T & F' & T'). assert (c2 = c) by (pose proof (eq_trans (eq_sym Hc2) Hc) as Q; injection Q; auto). subst c2.
      assert (He' : In e0 (f_subs face')) by (rewrite Hs; left; reflexivity).
      destruct (same_sides M M' _ _ _ _ _ _ _ _ F T F' T' He' Hab) as (_ & e1 & He1 & [H|H]); [exact (HSt f face e1 a b c Hf He1 H Hc)|].
      pose proof (tri_rev c (a, b)) as Q. cbn [rev_edge fst snd] in Q. rewrite <- Q. exact (HSt f face e1 b a c Hf He1 H Hc). }
  destruct (HM M1 M1') as (ls & Fs & Vs & ls' & Fs' & Vs' & EM & EM' & LFs & LFs' & HFn).
  assert (EF : Fs' = Fs).
  { apply (nth_ext _ _ 0 0); [exact (eq_trans LFs' (eq_sym LFs))|]. intros i Hi. assert (Hi' : (i < length (m_faces m))%nat) by (rewrite <- LFs'; exact Hi).
    destruct (nth_error (m_faces m) i) as [face|] eqn:Ef; [|apply nth_error_None in Ef; lia]. destruct (HB face (nth_error_In _ _ Ef)) as (vs & Bd).
    destruct (width_ex (map (vpoint M) vs)) as (w & HW).
    assert (A1 : nth_error Fs (N.to_nat (N.of_nat i)) = Some (nth i Fs 0)) by (rewrite Nat2N.id; apply nth_error_nth'; rewrite LFs; exact Hi').
    assert (A2 : nth_error Fs' (N.to_nat (N.of_nat i)) = Some (nth i Fs' 0)) by (rewrite Nat2N.id; apply nth_error_nth'; rewrite LFs'; exact Hi').
    assert (Ef2 : nth_error (m_faces m) (N.to_nat (N.of_nat i)) = Some face) by (rewrite Nat2N.id; exact Ef).
    pose proof (HFn _ face vs w _ _ Ef2 Bd HW A1 A2) as Q. apply rabs0. eapply Rle_trans; [exact Q|]. right. ring. }
  subst Fs'.
  assert (Lc' : length cc = length (m_cells M')) by (change (m_cells M') with (m_cells m'); rewrite LC'; exact Lc).
  assert (Lf' : length fc = length (m_faces M')) by (change (m_faces M') with (m_faces m'); rewrite LF'; exact Lf).
  destruct (C49_measures3 M cc fc G HN DM Pc Pf Lc Lf (proj1 M1) (proj2 M1)) as (l2 & F2 & V2 & EM2 & _ & _ & LV & _ & _ & HV).
  destruct (C49_measures3 M' cc fc G' HN' DM' Pc Pf Lc' Lf' (proj1 M1') (proj2 M1')) as (l2' & F2' & V2' & EM2' & _ & _ & LV' & _ & _ & HV').
  pose proof (eq_trans (eq_sym EM2) EM) as Q. injection Q as Q1 Q2 Q3. subst l2 F2 V2.
  pose proof (eq_trans (eq_sym EM2') EM') as Q'. injection Q' as Q1' Q2' Q3'. subst l2' F2' V2'.
  exists ls, Fs, Vs, ls', Vs'. do 4 (split; [assumption|]). intros Flat.
  change (m_cells M) with (m_cells m) in LV. change (m_cells M') with (m_cells m') in LV'. rewrite LC' in LV'.
  assert (Pyr : forall f x d, length x = 3%nat -> pyramid M fc Fs x f d -> pyramid M' fc Fs x f d).
  { intros f x d Lx (face & e0 & es & a & b & c & h & F & Hf & Hs & Hab & Hc & Hh & HF & ->).
    assert (Hlt : (N.to_nat f < length (m_faces m))%nat) by (apply nth_error_Some; change (m_faces M) with (m_faces m) in Hf; congruence).
    assert (Hn : (f < N.of_nat (length (m_faces M')))%N) by (change (m_faces M') with (m_faces m'); rewrite LF'; lia).
    destruct (pyramid_total M' fc Fs x f G' HN' DM' Lx Pf Lf' (eq_trans LFs (eq_sym LF')) (proj2 M1') Hn)
      as (d' & face' & e0' & es' & a' & b' & c' & h' & F' & Hf' & Hs' & Hab' & Hc' & Hh' & HF' & Ed).
    assert (c' = c) by (pose proof (eq_trans (eq_sym Hc') Hc) as Q; injection Q; auto). subst c'. assert (F' = F) by (pose proof (eq_trans (eq_sym HF') HF) as Q; injection Q; auto). subst F'.
    exists face', e0', es', a', b', c, h', F. do 6 (split; [assumption|]). f_equal. f_equal.
    destruct (Face _ _ Hf') as (face2 & vs & c2 & segs & segs' & Hf2 & Bd & Hc2 & Mn & Fg & T & Fg' & T').
    assert (face2 = face) by (change (m_faces M) with (m_faces m) in Hf; congruence). subst face2. assert (c2 = c) by (pose proof (eq_trans (eq_sym Hc2) Hc) as Q; injection Q; auto). subst c2.
    destruct (Flat face vs (nth_error_In _ _ Hf2) Bd) as (w & k & Lw & Hw & Hpl). change (fun v => nth (N.to_nat v) (m_verts M) nil) with (vpoint M) in Hpl.
    destruct (unit_of w Lw Hw) as (n & t & Ln & Hu & Hnt).
    assert (He0 : In e0 (f_subs face)) by (rewrite Hs; left; reflexivity). assert (He0' : In e0' (f_subs face')) by (rewrite Hs'; left; reflexivity).
    assert (On : forall a b, In (a, b) (cycle_edges (map (vpoint M) vs)) \/ In (b, a) (cycle_edges (map (vpoint M) vs)) -> sprod n a = t * k /\ sprod n b = t * k).
    { intros u v [H|H]; apply cycle_in in H as [H1 H2]; cbn [fst snd] in *; rewrite !Hnt, !Hpl by assumption; auto. }
    destruct (same_sides M M _ _ _ _ _ _ _ _ Fg T Fg T He0 Hab) as (I1 & _). destruct (same_sides M M' _ _ _ _ _ _ _ _ Fg T Fg' T' He0' Hab') as (I2 & _).
    apply On in I1 as [N1 N2]. apply On in I2 as [N3 N4].
    destruct (edge_points_length _ _ _ _ G Hab) as [La Lb]. destruct (edge_points_length _ _ _ _ G' Hab') as [La' Lb']. rewrite DM in La, Lb. rewrite DM' in La', Lb'.
    assert (Lcc : length c = 3%nat) by (apply Pf; eapply nth_error_In; exact Hc).
    assert (Nc : sprod n c = t * k).
    { rewrite Hnt. f_equal. rewrite sprod_comm.
      assert (NE : map (vpoint M) vs <> []) by (destruct Bd as ((_ & L3) & _); destruct vs; [simpl in L3; lia|discriminate]).
      rewrite (sprod_mean 3 w (map (vpoint M) vs) c Lw NE); [| |exact Mn].
      - rewrite (Rsum_ext _ (fun _ => k)) by (intros q Hq; rewrite sprod_comm; apply Hpl; exact Hq).
        assert (Z : forall l : list point, Rsum (map (fun _ => k) l) = INR (length l) * k) by (induction l as [|q l IH]; [simpl; ring|cbn [map length]; rewrite S_INR; change (Rsum (k :: ?l)) with (k + Rsum l); rewrite IH; ring]).
        rewrite Z. field. apply not_0_INR. destruct vs; [exfalso; apply NE; reflexivity|discriminate].
      - apply Forall_forall. intros q Hq. apply in_map_iff in Hq as (v & <- & Hv). rewrite <- DM. apply (geo_pts _ G). apply nth_In.
        assert (Rng : forall e l v, nth_error (mesh_edges m) (N.to_nat e) = Some l -> In v l -> (v < N.of_nat (length (m_verts M)))%N).
        { intros e l u Hk Hu2. assert (H1 : (1 <= 1 < m_dim M)%nat) by (rewrite DM; lia).
          destruct (wf_subs _ (geo_wf _ G) 1 e l H1 (subs_edges3 K m e l D Hk)) as (_ & Rg & _). exact (Rg u Hu2). }
        exact (N_lt_nat _ _ (bounds_verts _ _ _ _ Bd Rng v Hv)). }
    rewrite (plane_dist_unique x c a b h _ Lx Lcc La Lb (proj2 M1 f face e0 es a b c Hf Hs Hab Hc) Hh (ex_intro _ n (conj Ln (conj Hu (conj (eq_trans N1 (eq_sym Nc)) (conj (eq_trans N2 (eq_sym Nc)) eq_refl)))))).
    rewrite (plane_dist_unique x c a' b' h' _ Lx Lcc La' Lb' (proj2 M1' f face' e0' es' a' b' c Hf' Hs' Hab' Hc) Hh' (ex_intro _ n (conj Ln (conj Hu (conj (eq_trans N3 (eq_sym Nc)) (conj (eq_trans N4 (eq_sym Nc)) eq_refl)))))).
    reflexivity. }
  apply (nth_ext _ _ 0 0); [exact (eq_trans LV' (eq_sym LV))|]. intros i Hi. assert (Hi' : (i < length (m_cells m))%nat) by (rewrite <- LV'; exact Hi).
  assert (Hn : (N.of_nat i < N.of_nat (length (m_cells m)))%N) by lia. destruct (wf_ring _ W _ Hn) as (fs & R).
  assert (A1 : nth_error Vs (N.to_nat (N.of_nat i)) = Some (nth i Vs 0)) by (rewrite Nat2N.id; apply nth_error_nth'; rewrite LV; exact Hi').
  assert (A2 : nth_error Vs' (N.to_nat (N.of_nat i)) = Some (nth i Vs' 0)) by (rewrite Nat2N.id; apply nth_error_nth'; rewrite LV'; exact Hi').
  destruct (nth_error cc (N.to_nat (N.of_nat i))) as [x|] eqn:Ex; [|apply nth_error_None in Ex; rewrite Nat2N.id in Ex; lia].
  assert (Lx : length x = 3%nat) by (apply Pc; eapply nth_error_In; exact Ex).
  assert (Ds : exists ds, Forall2 (pyramid M fc Fs x) fs ds).
  { assert (Hfs : forall f, In f fs -> (f < N.of_nat (length (m_faces m)))%N) by (intros f; apply (ring_lt m _ _ f R)). clear -Hfs G HN DM Lx Pf Lf LFs M1.
    induction fs as [|f fs IH]; [exists []; constructor|]. destruct IH as (ds & F); [intros; apply Hfs; right; assumption|].
    destruct (pyramid_total M fc Fs x f G HN DM Lx Pf Lf LFs (proj2 M1) (Hfs f (or_introl eq_refl))) as (d & Hd). exists (d :: ds). constructor; assumption. }
  destruct Ds as (ds & FD). assert (FD' : Forall2 (pyramid M' fc Fs x) fs ds) by (clear -FD Pyr Lx; induction FD; constructor; auto).
  exact (eq_trans (HV' _ x fs ds _ Ex (proj2 (wp_ring _ m' _ fs) (proj2 (R' _ fs) R)) FD' A2) (eq_sym (HV _ x fs ds _ Ex (proj2 (wp_ring _ m _ fs) R) FD A1))).
Qed.
Print Assumptions C110_fpma.

(** The faces of a convex mesh are planar and sturdy, whatever points inside the faces are taken. *)
Lemma tri_vol x c a b : length x = 3%nat -> length c = 3%nat -> length a = 3%nat -> length b = 3%nat -> vol6 x c a b <> 0 -> tri_area c a b <> 0.
Proof.
  intros Lx Lc La Lb HV. assert (Q : vol6 x a b c <> 0) by (rewrite vol6_rot; exact HV).
  destruct (gs3_outward c a b x Lc La Lb Lx Q) as (e0' & e1 & e2 & n0 & n1 & n2 & _ & _ & EA & _ & _ & P). rewrite <- EA. lra.
Qed.
Lemma convex_sturdy (m : Mesh point) poly cc fc : convex_mesh3 m poly -> centers_inside m poly cc fc -> sturdy_faces m fc.
Proof.
  intros X I f face e a b c Hf He Hab Hc. pose proof I as (L1 & L2 & L3 & L4 & HI).
  assert (Q : exists i fs, is_cell m i = true /\ ring m i fs /\ In f fs).
  { destruct (cx3_side _ _ X face (nth_error_In _ _ Hf)) as [Hl|[_ Hr]].
    - destruct (side_ring m poly X f face _ Hf Hl (or_introl eq_refl)) as (fs & HR & Hin). eauto.
    - destruct (side_ring m poly X f face _ Hf Hr (or_intror eq_refl)) as (fs & HR & Hin). eauto. }
  destruct Q as (i & fs & Hi & HR & Hin). destruct (cell_center m poly cc fc I i Hi) as (x & Hx & Lx).
  destruct (HI i fs f x c HR Hin Hx Hc) as (n & k & _ & _ & _ & _ & _ & _ & HV).
  destruct (edge_points_length _ _ _ _ (cx3_geo _ _ X) Hab) as [La Lb]. rewrite (cx3_dim _ _ X) in La, Lb.
  assert (Lc : length c = 3%nat) by (apply L4; eapply nth_error_In; exact Hc).
  apply (tri_vol x c a b Lx Lc La Lb). destruct (face_edges m poly X i fs f face e a b HR Hin Hf He Hab) as [Q|Q]; specialize (HV _ Q); cbn [fst snd] in HV; [lra|].
  rewrite vol6_flip in HV. lra.
Qed.
Lemma convex_flat C (g : C * C * C -> point) (m : Mesh (C * C * C)) poly : wf_mesh m -> (forall p, length (g p) = 3%nat) -> convex_mesh3 (with_points g m) poly -> flat_faces (with_points g m) (mesh_edges m).
Proof.
  intros W Lg X face vs Hin Bd. set (M := with_points g m) in *. change (fun v => nth (N.to_nat v) (m_verts M) nil) with (vpoint M).
  pose proof (cx3_dim _ _ X) as D. apply In_nth_error in Hin as [k0 Hf]. rewrite <- (Nat2N.id k0) in Hf. set (f := N.of_nat k0) in *.
  assert (Q : exists i fs, is_cell M i = true /\ ring M i fs /\ In f fs).
  { destruct (cx3_side _ _ X face (nth_error_In _ _ Hf)) as [Hl|[_ Hr]].
    - destruct (side_ring M poly X f face _ Hf Hl (or_introl eq_refl)) as (fs & HR & Hin). eauto.
    - destruct (side_ring M poly X f face _ Hf Hr (or_intror eq_refl)) as (fs & HR & Hin). eauto. }
  destruct Q as (i & fs & Hi & HR & Hin). destruct (cx3_cell _ _ X i fs HR) as [[_ HSol] _].
  destruct (HSol (poly i f)) as (Hne & n & k & Ln & Hk & _ & (ws & w & Hws & Hw & Hlt) & _); [apply in_map; exact Hin|].
  assert (Nz : sprod n n <> 0).
  { intros Z. assert (Zn : forall v, length v = 3%nat -> sprod n v = 0).
    { intros v Lv. destruct (len3 n Ln) as (a & b & c & ->). destruct (len3 v Lv) as (x & y & z & ->). cbn [sprod] in *.
      assert (a = 0) by nra. assert (b = 0) by nra. assert (c = 0) by nra. subst. ring. }
    destruct (poly i f) as [|v0 r] eqn:EP; [congruence|]. pose proof (Hk v0 (or_introl eq_refl)) as Q0.
    rewrite (Zn v0) in Q0; [|apply (poly_len M poly X i fs f v0 HR Hin); rewrite EP; left; reflexivity].
    apply in_map_iff in Hws as (h & <- & Hh). rewrite (Zn w) in Hlt; [lra|apply (poly_len M poly X i fs h w HR Hh Hw)]. }
  exists n, k. splits; [exact Ln|exact Nz|]. intros p Hp.
  destruct (bounds_traces M (mesh_edges m) (vpoint M)) with (es := f_subs face) (vs := vs) as (segs & F & T); [|exact Bd|].
  { intros e a b H. apply edge_verts; [exact (wp_wf g m W)| |rewrite D; lia]. unfold subs. change (m_mid M) with (m_mid m). rewrite D. cbn [Nat.sub Nat.eqb]. apply vat_ok. exact H. }
  apply cycle_start in Hp as (e & He & <-). destruct T as (ds & P1 & T1). apply (Permutation_in _ P1) in He.
  apply In_nth_error in He as [q Hq]. destruct (Forall2_nth_r _ _ _ _ _ T1 Hq) as (sg & Hsg & Hse). destruct (Forall2_nth_r _ _ _ _ _ F Hsg) as (e1 & He1 & Hp1).
  apply nth_error_In in He1. destruct (face_edges M poly X i fs f face e1 _ _ HR Hin Hf He1 Hp1) as [H|H]; apply cycle_in in H as [H1 H2]; cbn [fst snd] in *;
    apply Hk; destruct Hse as [-> | ->]; assumption.
Qed.

Lemma init_known (u : UMesh numR) ec fc cc : let m := u_mesh u in m_dim m = 3%nat -> computeCenters (K := numR) false m = Ok [ec; fc; cc] ->
  length fc = length (m_faces m) -> length cc = length (m_cells m) -> initializeCenters (K := numR) false u = Ok (mkU m fc cc (u_bcc u)).
Proof.
  intros m D E Lf Lc. unfold initializeCenters. fold m. refine (eq_trans (f_equal (fun o => bind o _) E) _). cbn [bind].
  assert (D' : @m_dim (vec numR) m = 3%nat) by exact D. rewrite D'.
  rewrite (centerAt_tab [ec; fc; cc] (3 - 1) fc (length (m_faces m))); [|reflexivity|exact Lf].
  cbn [bind]. rewrite (centerAt_tab [ec; fc; cc] 3 cc (length (m_cells m))); [reflexivity|reflexivity|exact Lc].
Qed.

(** C110. Convex meshes (C78): nothing else is needed. The volumes of the mesh and of its copy are the volumes of the polyhedra. *)
Theorem C110_convex3 : forall C (K : fp C) (m : Mesh (C * C * C)) reserve poly,
  keeps K -> (forall p, In p (m_verts m) -> short_number K (fst (fst p)) /\ short_number K (snd (fst p)) /\ short_number K (snd p)) ->
  wf_mesh m -> convex_mesh3 (with_points (real3 K) m) poly ->
  (forall f, In f (m_faces m) -> exists vs, bounds (mesh_edges m) (f_subs f) vs) ->
  (N.of_nat (length (m_faces m)) <= INVALID)%N -> (N.of_nat (length (m_cells m)) <= INVALID)%N -> (N.of_nat (length (m_verts m)) < 2 ^ 64)%N ->
  (reserve = 0%nat \/ forall f, In f (m_faces m) -> (length (f_subs f) <= reserve)%nat) ->
  exists s m', writeFPMAtext K m = Ok s /\ readFPMA K reserve s (emptyMesh 3) = Ok m' /\
  exists ec fc cc ec' ls Fs Vs ls',
    computeCenters (K := numR) false (with_points (real3 K) m) = Ok [ec; fc; cc] /\
    computeCenters (K := numR) false (with_points (real3 K) m') = Ok [ec'; fc; cc] /\
    computeMeasures3 (K := numR) (with_points (real3 K) m) cc fc = Ok (ls, Fs, Vs) /\
    computeMeasures3 (K := numR) (with_points (real3 K) m') cc fc = Ok (ls', Fs, Vs) /\ length Vs = length (m_cells m) /\
    forall i fs, ring m i fs \/ ring m' i fs -> nth_error Vs (N.to_nat i) = Some (poly_volume (map (poly i) fs)) /\ 0 < poly_volume (map (poly i) fs).
Proof.
  intros C K m reserve poly HK HS W X HB SF SC SV HR. pose proof (cx3_dim _ _ X) as D.
  destruct (C110_fpma C K m reserve HK HS W D HB SF SC SV HR) as (s & m' & Es & Er & _ & ec & fc & cc & ec' & E & E' & Lf & Lc & H).
  destruct (C80_fpma_characters C K m reserve W D HB SF SC SV HR) as (s2 & m2 & Es2 & Er2 & _ & _ & _ & _ & _ & R' & _).
  assert (s2 = s) by congruence. subst s2. assert (m2 = m') by congruence. subst m2.
  exists s, m'. split; [exact Es|]. split; [exact Er|]. set (M := with_points (real3 K) m) in *.
  destruct (init3 (fresh (K := numR) M) poly false X) as (cc0 & fc0 & EI & Lf0 & Lc0 & Hfc & Hcc). cbn [u_mesh fresh] in Lf0, Lc0, Hfc, Hcc.
  assert (CI : centers_inside M poly cc0 fc0).
  { apply (centers_inside3 (fresh (K := numR) M) poly cc0 fc0 X Lf0 Lc0); [|exact Hcc]. intros i fs f c HR0 Hf Hc. exact (proj1 (Hfc i fs f c HR0 Hf Hc)). }
  assert (EQ : fc0 = fc /\ cc0 = cc).
  { pose proof (init_known (fresh (K := numR) M) ec fc cc D E Lf Lc) as Q. pose proof (eq_trans (eq_sym Q) EI) as Q'. injection Q' as Q1 Q2. auto. }
  destruct EQ as [-> ->].
  destruct (H (cx3_edges _ _ X) (convex_sturdy M poly cc fc X CI)) as (ls & Fs & Vs & ls' & Vs' & EM & EM' & _ & LV & HV).
  assert (EV : Vs' = Vs) by (apply HV; apply (convex_flat C (real3 K) m poly W); [reflexivity|exact X]). subst Vs'.
  exists ec, fc, cc, ec', ls, Fs, Vs, ls'. do 5 (split; [assumption|]). intros i fs HRi.
  destruct (convex3_core M poly cc fc X CI) as (l0 & F0 & V0 & ns & EM0 & _ & _ & _ & _ & _ & HVol & _).
  pose proof (eq_trans (eq_sym EM0) EM) as Q. injection Q as Q1 Q2 Q3. subst l0 F0 V0. apply HVol. apply wp_ring. destruct HRi as [HRi|HRi]; [exact HRi|apply R'; exact HRi].
Qed.
Print Assumptions C110_convex3.

(** * Non-vacuity: a type of integers that reads the nearest one; two triangles, and two tetrahedra (volumes 1/6 and 1/3), with coordinates 0 and 1. *)
Definition shortQ : Mesh (Q * Q) :=
  mkMesh 2 (map (fun p => (fst p # 1, snd p # 1)) (m_verts twoTriangles)) (m_mid twoTriangles) (m_faces twoTriangles) (m_cells twoTriangles) [].
Definition tetsQ : Mesh (Q * Q * Q) :=
  mkMesh 3 (map (fun p => (fst (fst p) # 1, snd (fst p) # 1, snd p # 1)) (m_verts twoTets)) (m_mid twoTets) (m_faces twoTets) (m_cells twoTets) [].
Lemma short_int z : (Z.abs z < 1000000)%Z -> short_number exactQ (z # 1).
Proof. intros H. exists z, 0%Z. split; [exact H|]. cbn [val exactQ]. change ((10 # 1) ^ 0)%Q with 1%Q. rewrite Qmult_1_r. reflexivity. Qed.
Lemma tetsQ_R : with_points (real3 exactQ) tetsQ = tetsR.
Proof.
  unfold with_points, tetsQ, tetsR, with_points, real3, pt3, Q2R. cbn [m_verts m_dim m_mid m_faces m_cells m_bcells twoTets map fst snd val exactQ Qnum Qden].
  replace (0 * / 1)%R with 0%R by lra. replace (1 * / 1)%R with 1%R by lra. reflexivity.
Qed.
Example C110_instance2 : exists s m', writeVTK2text exactQ shortQ [TRIANGLE; TRIANGLE] = Ok s /\
  readVTK2 exactQ (headerText (str "two triangles") ++ s) (emptyMesh 2) [] = Ok (m', [TRIANGLE; TRIANGLE]) /\
  exists cc ls ls' As, computeMeasures2 (K := numR) (with_points (real2 exactQ) shortQ) cc = Ok (ls, As) /\
    computeMeasures2 (K := numR) (with_points (real2 exactQ) m') cc = Ok (ls', As) /\ length As = 2%nat.
Proof.
  assert (Uniq : forall e e' a b, joins (edges2 shortQ) e a b -> joins (edges2 shortQ) e' a b -> e = e').
  { intros e e' a b H H'. unfold joins in *. change (edges2 shortQ) with (edges2 twoTriangles) in *.
    apply N2Nat.inj. destruct (N.to_nat e) as [|[|[|[|[|k]]]]]; destruct (N.to_nat e') as [|[|[|[|[|k']]]]]; try reflexivity; exfalso; cbn in H, H';
      repeat match goal with K : _ \/ _ |- _ => destruct K end; try (destruct k; discriminate); try (destruct k'; discriminate); congruence. }
  assert (W : wf_mesh shortQ) by (apply (wf_with_verts _ _ twoTriangles); try reflexivity; apply twoTriangles_wf).
  assert (Cells : forall c, (c < N.of_nat (length (m_cells shortQ)))%N -> exists es vs, ring shortQ c es /\ bounds (edges2 shortQ) es vs).
  { intros c Hc. destruct C25_instance as [A _]. destruct (A c Hc) as (es & vs & R & B). exists es, vs. split; [apply (ring_ext _ _ twoTriangles); [reflexivity|reflexivity|exact R]|exact B]. }
  assert (S1 : (N.of_nat 4 <= INVALID)%N) by (apply N.leb_le; reflexivity). assert (S2 : (N.of_nat 2 <= INVALID)%N) by (apply N.leb_le; reflexivity). assert (S3 : (N.of_nat 10 <= INVALID)%N) by (apply N.leb_le; reflexivity).
  assert (HK : keeps exactQ) by (intros c q H; exact H).
  assert (HS : forall p, In p (m_verts shortQ) -> short_number exactQ (fst p) /\ short_number exactQ (snd p)).
  { intros p Hp. cbn in Hp. destruct Hp as [<-|[<-|[<-|[<-|[]]]]]; split; apply short_int; reflexivity. }
  destruct (C110_vtk2 Q exactQ shortQ [TRIANGLE; TRIANGLE] [5; 5]%N (str "two triangles") HK HS ltac:(reflexivity) W eq_refl Cells Uniq S1 S2 S3) as
    (s & m' & Ew & Er & _ & ec & cc & ls & As & ec' & ls' & _ & EM & _ & EM' & _ & LA).
  - repeat constructor.
  - reflexivity.
  - cbn. intuition discriminate.
  - cbn. lia.
  - exists s, m'. split; [exact Ew|]. split; [specialize (Er []); rewrite app_nil_r in Er; exact Er|]. exists cc, ls, ls', As. auto.
Qed.
Example C110_instance3 : exists s m', writeFPMAtext exactQ tetsQ = Ok s /\ readFPMA exactQ 0 s (emptyMesh 3) = Ok m' /\
  exists cc fc ls ls' Fs, computeMeasures3 (K := numR) (with_points (real3 exactQ) tetsQ) cc fc = Ok (ls, Fs, [1/6; 1/3]) /\
    computeMeasures3 (K := numR) (with_points (real3 exactQ) m') cc fc = Ok (ls', Fs, [1/6; 1/3]).
Proof.
  assert (HK : keeps exactQ) by (intros c q H; exact H).
  assert (HS : forall p, In p (m_verts tetsQ) -> short_number exactQ (fst (fst p)) /\ short_number exactQ (snd (fst p)) /\ short_number exactQ (snd p)).
  { intros p Hp. cbn in Hp. destruct Hp as [<-|[<-|[<-|[<-|[<-|[]]]]]]; repeat split; apply short_int; reflexivity. }
  assert (W : wf_mesh tetsQ).
  { pose proof (cx3_geo _ _ tets_convex) as G. apply (wf_with_verts _ _ tetsR); try reflexivity. apply G. }
  assert (HB : forall f, In f (m_faces tetsQ) -> exists vs, bounds (mesh_edges tetsQ) (f_subs f) vs).
  { intros f Hf. apply bounds_check_sound.
    assert (H : forallb (fun f => bounds_check (mesh_edges tetsQ) (f_subs f)) (m_faces tetsQ) = true) by (vm_compute; reflexivity).
    rewrite forallb_forall in H. apply H. assumption. }
  assert (S1 : (N.of_nat 7 <= INVALID)%N) by (apply N.leb_le; reflexivity). assert (S2 : (N.of_nat 2 <= INVALID)%N) by (apply N.leb_le; reflexivity). assert (S3 : (N.of_nat 5 < 2 ^ 64)%N) by reflexivity.
  assert (X : convex_mesh3 (with_points (real3 exactQ) tetsQ) tetsP) by (rewrite tetsQ_R; exact tets_convex).
  destruct (C110_convex3 Q exactQ tetsQ 0 tetsP HK HS W X HB S1 S2 S3 (or_introl eq_refl)) as (s & m' & Es & Er & ec & fc & cc & ec' & ls & Fs & Vs & ls' & EC & EC' & EM & EM' & LV & HV).
  exists s, m'. split; [exact Es|]. split; [exact Er|]. exists cc, fc, ls, ls', Fs.
  assert (EV : Vs = [1/6; 1/3]).
  { destruct (HV 0%N [0;1;2;3]%N) as [V0 _]; [left; apply ring_iff; vm_compute; reflexivity|]. destruct (HV 1%N [4;5;6;0]%N) as [V1 _]; [left; apply ring_iff; vm_compute; reflexivity|].
    destruct C78_instance as (_ & _ & _ & Q0 & Q1 & _). rewrite Q0 in V0. rewrite Q1 in V1.
    change (length (m_cells tetsQ)) with 2%nat in LV. destruct Vs as [|v0 [|v1 [|? ?]]]; try discriminate LV. injection V0 as ->. injection V1 as ->. reflexivity. }
  subst Vs. auto.
Qed.
(** The integers as coordinates, read to the nearest one. *)
Definition intQ : fp Z := mkFp Z (fun z => z # 1) (fun q => Qround.Qfloor (q + (1 # 2))).
Example C110_instance_nearest : reads_nearest intQ.
Proof.
  intros q c. cbn [val near intQ]. pose proof (Qround.Qfloor_le (q + (1 # 2))) as L. pose proof (Qround.Qlt_floor (q + (1 # 2))) as U.
  set (f := Qround.Qfloor (q + (1 # 2))) in *. rewrite inject_Z_plus in U. unfold inject_Z in *.
  destruct (Z.eq_dec f c) as [->|D]; [apply Qle_refl|].
  assert (A : (Qabs ((f # 1) - q) <= 1 # 2)%Q) by (apply Qabs_Qle_condition; split; Lqa.lra).
  apply (Qle_trans _ _ _ A). destruct (Z_lt_le_dec f c) as [H|H].
  - assert (H' : (inject_Z (f + 1) <= inject_Z c)%Q) by (rewrite <- Zle_Qle; apply Zlt_le_succ; exact H). rewrite inject_Z_plus in H'. unfold inject_Z in H'.
    eapply Qle_trans; [|apply Qle_Qabs]. Lqa.lra.
  - assert (H0 : (c < f)%Z) by (clear -H D; lia).
    assert (H' : (inject_Z (c + 1) <= inject_Z f)%Q) by (rewrite <- Zle_Qle; apply Zlt_le_succ; exact H0). rewrite inject_Z_plus in H'. unfold inject_Z in H'.
    rewrite Qabs_Qminus. eapply Qle_trans; [|apply Qle_Qabs]. Lqa.lra.
Qed.

(** C102, second part: a mesh and its copy from a text file. Exact real arithmetic on the numbers of both. *)
From Coq Require Import String Ascii Reals Lra QArith Qabs Qreals Permutation List.
Import ListNotations.
From Verif Require Import P_Base M_Conn S_Conn M_Index M_Mesh M_Apply M_Connections S_Mesh P_Apply M_Vec S_Vec P_Vec M_Geom S_Geom P_Geom P_Centers T_Centers S_Polygon P_Polygon P_Convex
  T_Measure2 T_Volume M_Object T_Object T_ConvexVTK M_Text M_Chars M_Stream S_Stream M_FileText S_FileText M_FPMA S_FPMA P_FPMA P_RoundTrip M_VTK S_VTK M_VTKWrite T_FileText T_VTKText S_Near P_Near P_NearFile T_Near Ex_Mesh Ex_Geom.
Local Open Scope nat_scope.
Local Open Scope list_scope.
Local Open Scope R_scope.

(** The points of a mesh as points of the plane and of the space. *)
Definition real2 {C} (K : fp C) (p : C * C) : point := [Q2R (val K (fst p)); Q2R (val K (snd p))].
Definition real3 {C} (K : fp C) (p : C * C * C) : point := [Q2R (val K (fst (fst p))); Q2R (val K (snd (fst p))); Q2R (val K (snd p))].

(** A coordinate and its copy differ by at most 5.2e-6 of the coordinate. *)
Lemma Q2R_abs q : Q2R (Qabs q) = Rabs (Q2R q).
Proof.
  apply Qabs_case; intros H; apply Qle_Rle in H; change (Q2R 0) with (IZR 0 * / IZR 1) in H; rewrite Rmult_0_l in H.
  - rewrite Rabs_pos_eq by assumption. reflexivity.
  - rewrite Q2R_opp, Rabs_left1 by assumption. reflexivity.
Qed.
Lemma copy_near {C} (K : fp C) c c' : precise K -> six_digit_copy K c c' -> Rabs (Q2R (val K c') - Q2R (val K c)) <= 52 / 10000000 * Rabs (Q2R (val K c)).
Proof.
  intros P (q & _ & H & ->). specialize (P q). apply Qle_Rle in H, P. rewrite Q2R_abs, Q2R_mult, Q2R_abs, Q2R_minus in H, P.
  replace (Q2R (5 # 1000000)) with (5 / 1000000) in H by (unfold Q2R; simpl; field). replace (Q2R (1 # 10000000)) with (1 / 10000000) in P by (unfold Q2R; simpl; field).
  set (x := Q2R (val K c)) in *. set (y := Q2R q) in *. set (z := Q2R (val K (near K q))) in *.
  assert (Rabs y <= Rabs x + Rabs (y - x)). { replace y with (x + (y - x)) at 1 by ring. apply Rabs_triang. }
  replace (z - x) with ((z - y) + (y - x)) by ring. eapply Rle_trans; [apply Rabs_triang|]. pose proof (Rabs_pos x). lra.
Qed.
Lemma copy2_near {C} (K : fp C) B p p' : precise K -> (forall i, Rabs (nth i (real2 K p) 0) <= B) -> copy2 K p p' -> near_point (52 / 10000000 * B) (real2 K p) (real2 K p').
Proof.
  intros PK HB [H1 H2]. pose proof (copy_near K _ _ PK H1) as A. pose proof (copy_near K _ _ PK H2) as A'. pose proof (HB 0%nat) as B0. pose proof (HB 1%nat) as B1.
  cbn [real2 nth] in B0, B1. pose proof (Rabs_pos (Q2R (val K (fst p)))).
  intros [|[|i]]; cbn [real2 nth]; [lra|lra|]. destruct i; rewrite Rminus_0_r, Rabs_R0; lra.
Qed.
Lemma copy3_near {C} (K : fp C) B p p' : precise K -> (forall i, Rabs (nth i (real3 K p) 0) <= B) -> copy3 K p p' -> near_point (52 / 10000000 * B) (real3 K p) (real3 K p').
Proof.
  intros PK HB (H1 & H2 & H3). pose proof (copy_near K _ _ PK H1) as A. pose proof (copy_near K _ _ PK H2) as A'. pose proof (copy_near K _ _ PK H3) as A''.
  pose proof (HB 0%nat) as B0. pose proof (HB 1%nat) as B1. pose proof (HB 2%nat) as B2.
  cbn [real3 nth] in B0, B1, B2. pose proof (Rabs_pos (Q2R (val K (fst (fst p))))).
  intros [|[|[|i]]]; cbn [real3 nth]; [lra|lra|lra|]. destruct i; rewrite Rminus_0_r, Rabs_R0; lra.
Qed.

(** Vertex number v of a mesh. *)
Definition vpoint (M : Mesh point) (v : N) : point := nth (N.to_nat v) (m_verts M) [].
Lemma vpoint_in (M : Mesh point) v p : nth_error (m_verts M) (N.to_nat v) = Some p -> vpoint M v = p.
Proof. intros H. unfold vpoint. apply nth_error_nth. exact H. Qed.
Lemma edge_verts (M : Mesh point) e a b : wf_mesh M -> subs M 1 e = Ok [a; b] -> (1 < m_dim M)%nat -> edge_points M e (vpoint M a) (vpoint M b).
Proof.
  intros W Hs HD. exists a, b. split; [exact Hs|]. destruct (wf_subs _ W 1 e _ ltac:(lia) Hs) as (_ & R & _).
  assert (Q : forall v, In v [a; b] -> nth_error (m_verts M) (N.to_nat v) = Some (vpoint M v)).
  { intros v Hv. specialize (R v Hv). cbn [Nat.sub] in R. unfold n_elems in R. cbn [Nat.eqb] in R. apply nth_error_nth'. lia. }
  split; apply Q; simpl; auto.
Qed.

Section Two.
Context {C : Type}.
Variable K : fp C.
Lemma subs_edges2 (m : Mesh (C * C)) e l : m_dim m = 2%nat -> (nth_error (edges2 m) (N.to_nat e) = Some l <-> subs (with_points (real2 K) m) 1 e = Ok l).
Proof.
  intros D. unfold subs, edges2. cbn [m_dim with_points]. rewrite D. cbn [Nat.sub Nat.eqb]. change (m_faces (with_points (real2 K) m)) with (m_faces m). rewrite nth_error_map. split.
  - intros H. destruct (nth_error (m_faces m) (N.to_nat e)) as [f|] eqn:Ef; [|discriminate]. injection H as <-. rewrite (proj2 (vat_ok _ _ _) Ef). reflexivity.
  - intros H. apply bind_ok in H as (f & Hf & H). apply vat_ok in Hf. rewrite Hf. injection H as <-. reflexivity.
Qed.
Lemma poly2 (m : Mesh (C * C)) i es vs cs c : wf_mesh m -> m_dim m = 2%nat -> centers_spec (with_points (real2 K) m) cs -> ring m i es -> bounds (edges2 m) es vs ->
  at_ cs 2 i = Some c ->
  is_mean 2 (map (vpoint (with_points (real2 K) m)) vs) c /\
  exists segs, Forall2 (fun f e => edge_points (with_points (real2 K) m) f (fst e) (snd e)) es segs /\
    traces segs (cycle_edges (map (vpoint (with_points (real2 K) m)) vs)).
Proof.
  intros W D S R B Hc. set (M := with_points (real2 K) m) in *.
  assert (WM : wf_mesh M) by (apply wp_wf; exact W). assert (DM : m_dim M = 2%nat) by exact D.
  destruct (bounds_traces M (edges2 m) (vpoint M)) with (es := es) (vs := vs) as (segs & F & T); [|exact B|].
  { intros e a b H. apply edge_verts; [exact WM|apply (subs_edges2 m); assumption|rewrite DM; lia]. }
  split; [|exists segs; split; assumption]. rewrite <- DM.
  apply (polygon_center M cs i es segs); try assumption; [rewrite DM; lia|]. unfold children. rewrite DM. cbn [Nat.eqb]. apply wp_ring. exact R.
Qed.
End Two.

(** What is left of a planar mesh after writing and reading, if the copy of every vertex is near enough. *)
Lemma vtk2_near_copy : forall C (K : fp C) (m : Mesh (C * C)) types codes name d,
  (val K (near K 0) == 0)%Q -> wf_mesh m -> m_dim m = 2%nat ->
  (forall c, (c < N.of_nat (length (m_cells m)))%N -> exists es vs, ring m c es /\ bounds (edges2 m) es vs) ->
  (forall e e' a b, joins (edges2 m) e a b -> joins (edges2 m) e' a b -> e = e') ->
  (N.of_nat (length (m_verts m)) <= INVALID)%N -> (N.of_nat (length (m_cells m)) <= INVALID)%N -> (N.of_nat (2 * length (m_faces m)) <= INVALID)%N ->
  Forall2 (fun t n => vtkCode2 t = Some n) types codes -> length types = length (m_cells m) ->
  ~ In nl name -> (length name < 1024)%nat ->
  (forall p p', In p (m_verts m) -> copy2 K p p' -> near_point d (real2 K p) (real2 K p')) ->
  exists s m', writeVTK2text K m types = Ok s /\ (forall after, readVTK2 K (headerText name ++ s ++ after) (emptyMesh 2) [] = Ok (m', types)) /\
  exists ec cc ls As ec' cc' ls' As',
    computeCenters (K := numR) false (with_points (real2 K) m) = Ok [ec; cc] /\ computeMeasures2 (K := numR) (with_points (real2 K) m) cc = Ok (ls, As) /\
    computeCenters (K := numR) false (with_points (real2 K) m') = Ok [ec'; cc'] /\ computeMeasures2 (K := numR) (with_points (real2 K) m') cc' = Ok (ls', As') /\
    length cc = length (m_cells m) /\ length cc' = length (m_cells m) /\ length As = length (m_cells m) /\ length As' = length (m_cells m) /\
    Forall2 (near_point d) cc cc' /\
    forall i es vs w A A', ring m i es -> bounds (edges2 m) es vs -> width w (map (vpoint (with_points (real2 K) m)) vs) ->
      nth_error As (N.to_nat i) = Some A -> nth_error As' (N.to_nat i) = Some A' ->
      Rabs (A' - A) <= INR (length vs) * ((w + 2 * d) * (w + 2 * d) - w * w).
Proof.
  intros C K m types codes name d Z W D Cells Uniq SV SC SF Types LT N1 N2 HB.
  assert (HV : forall f v, In f (m_faces m) -> In v (f_subs f) -> (v < N.of_nat (length (m_verts m)))%N).
  { intros f v Hf Hv. apply In_nth_error in Hf as [e He]. assert (Hs : subs m 1 (N.of_nat e) = Ok (f_subs f)).
    { unfold subs. rewrite D. cbn [Nat.sub Nat.eqb]. assert (Q : vat (m_faces m) (N.of_nat e) = Ok f) by (apply vat_ok; rewrite Nat2N.id; exact He). rewrite Q. reflexivity. }
    assert (H1 : (1 <= 1 < m_dim m)%nat) by (rewrite D; lia).
    destruct (wf_subs _ W 1 _ _ H1 Hs) as (_ & R & _). specialize (R v Hv). exact R. }
  destruct (C81_vtk2_characters C K m types codes name Z Cells Uniq HV SV SC SF Types LT D N1 N2) as (s & m' & Es & Er & W' & D' & V' & L' & _ & R').
  exists s, m'. split; [exact Es|]. split; [exact Er|].
  set (M := with_points (real2 K) m). set (M' := with_points (real2 K) m').
  assert (G : geo_mesh M) by (apply (wp_geo _ m 2); auto). assert (G' : geo_mesh M') by (apply (wp_geo _ m' 2); auto).
  assert (DM : m_dim M = 2%nat) by exact D. assert (DM' : m_dim M' = 2%nat) by exact D'.
  assert (HN : no_empty M) by (intros k i js Hk; rewrite DM in Hk; lia). assert (HN' : no_empty M') by (intros k i js Hk; rewrite DM' in Hk; lia).
  destruct (C46_centers M G HN) as (cs & E & S & _). destruct (C46_centers M' G' HN') as (cs' & E' & S' & _).
  assert (Shape : forall m cs, m_dim m = 2%nat -> centers_spec m cs -> exists ec cc, cs = [ec; cc] /\ length cc = length (m_cells m)).
  { intros m0 cs0 D0 S0. pose proof (cs_len _ _ S0) as L. rewrite D0 in L. destruct cs0 as [|ec [|cc [|]]]; try discriminate. exists ec, cc. split; [reflexivity|].
    rewrite (proj1 (cs_tab _ _ S0 1%nat cc eq_refl)). unfold n_elems. rewrite D0. reflexivity. }
  destruct (Shape M cs DM S) as (ec & cc & -> & Lc). destruct (Shape M' cs' DM' S') as (ec' & cc' & -> & Lc').
  destruct (C45_measures2 M cc G DM Lc) as (ls & As & EM & _ & LA & _ & HA). destruct (C45_measures2 M' cc' G' DM' Lc') as (ls' & As' & EM' & _ & LA' & _ & HA').
  change (m_cells M) with (m_cells m) in *. change (m_cells M') with (m_cells m') in *. rewrite L' in Lc', LA'.
  exists ec, cc, ls, As, ec', cc', ls', As'. do 8 (split; [assumption|]).
  assert (NV : forall v, (v < N.of_nat (length (m_verts m)))%N -> near_point d (vpoint M v) (vpoint M' v)).
  { intros v Hv. destruct (nth_error (m_verts m) (N.to_nat v)) as [p|] eqn:Ep; [|apply nth_error_None in Ep; lia].
    destruct (Forall2_nth_l _ _ _ _ _ V' Ep) as (p' & Ep' & Hc).
    rewrite (vpoint_in M v (real2 K p)), (vpoint_in M' v (real2 K p')) by (cbn [M M' with_points m_verts]; rewrite nth_error_map, ?Ep, ?Ep'; reflexivity).
    apply HB; [eapply nth_error_In; exact Ep|exact Hc]. }
  assert (LV : forall v, (v < N.of_nat (length (m_verts m)))%N -> length (vpoint M v) = 2%nat /\ length (vpoint M' v) = 2%nat).
  { intros v Hv. pose proof (Forall2_length' _ _ _ V') as LL.
    assert (B1 : (N.to_nat v < length (m_verts M))%nat) by (cbn [M with_points m_verts]; rewrite map_length; lia).
    assert (B2 : (N.to_nat v < length (m_verts M'))%nat) by (cbn [M' with_points m_verts]; rewrite map_length; lia).
    split; [rewrite <- DM; apply (geo_pts _ G)|rewrite <- DM'; apply (geo_pts _ G')]; apply nth_In; assumption. }
  assert (Key : forall i es vs c c', ring m i es -> bounds (edges2 m) es vs -> nth_error cc (N.to_nat i) = Some c -> nth_error cc' (N.to_nat i) = Some c' ->
    is_mean 2 (map (vpoint M) vs) c /\ is_mean 2 (map (vpoint M') vs) c' /\ Forall2 (near_point d) (map (vpoint M) vs) (map (vpoint M') vs) /\ vs <> [] /\
    (forall p, In p (map (vpoint M) vs) -> length p = 2%nat) /\ (forall p, In p (map (vpoint M') vs) -> length p = 2%nat) /\
    (exists segs, Forall2 (fun f e => edge_points M f (fst e) (snd e)) es segs /\ traces segs (cycle_edges (map (vpoint M) vs))) /\
    (exists es' segs, ring M' i es' /\ Forall2 (fun f e => edge_points M' f (fst e) (snd e)) es' segs /\ traces segs (cycle_edges (map (vpoint M') vs)))).
  { intros i es vs c c' R Bd Ec Ec'. destruct (R' i es R) as (es' & Rr & Bd'). pose proof (proj1 (Bd' vs) Bd) as Bd2.
    destruct (poly2 K m i es vs _ c W D S R Bd Ec) as [Q1 Q2]. destruct (poly2 K m' i es' vs _ c' W' D' S' Rr Bd2 Ec') as [Q3 (segs' & Q4 & Q5)].
    assert (Rng : forall v, In v vs -> (v < N.of_nat (length (m_verts m)))%N).
    { apply (bounds_verts _ _ _ _ Bd). intros e k v Hk Hv. unfold edges2 in Hk. rewrite nth_error_map in Hk. destruct (nth_error (m_faces m) (N.to_nat e)) as [f|] eqn:Ef; [|discriminate]. injection Hk as <-.
      apply (HV f v); [eapply nth_error_In; exact Ef|exact Hv]. }
    splits; try assumption.
    - clear -Rng NV. induction vs as [|v vs IH]; cbn [map]; constructor; [apply NV, Rng; left; reflexivity|apply IH; intros; apply Rng; right; assumption].
    - destruct Bd as ((_ & L3) & _). intros ->. simpl in L3. lia.
    - intros p Hp. apply in_map_iff in Hp as (v & <- & Hv). apply LV, Rng, Hv.
    - intros p Hp. apply in_map_iff in Hp as (v & <- & Hv). apply LV, Rng, Hv.
    - exists es', segs'. splits; [apply wp_ring; exact Rr|assumption|assumption]. }
  split.
  - apply Forall2_of_nth; [congruence|]. intros i c c' Ec Ec'. rewrite <- (Nat2N.id i) in Ec, Ec'.
    assert (Hi : (N.of_nat i < N.of_nat (length (m_cells m)))%N) by (rewrite <- Lc; assert (N.to_nat (N.of_nat i) < length cc)%nat by (apply nth_error_Some; congruence); lia).
    destruct (Cells _ Hi) as (es & vs & R & Bd). destruct (Key _ es vs c c' R Bd Ec Ec') as (Q1 & Q2 & Q3 & Q4 & _).
    apply (near_mean 2 d _ _ _ _ Q1 Q2); [|exact Q3]. destruct vs; [congruence|discriminate].
  - intros i es vs w A A' R Bd HW HA1 HA2.
    assert (Hi : (N.to_nat i < length (m_cells m))%nat) by (rewrite <- LA; apply nth_error_Some; congruence).
    destruct (nth_error cc (N.to_nat i)) as [c|] eqn:Ec; [|apply nth_error_None in Ec; lia].
    destruct (nth_error cc' (N.to_nat i)) as [c'|] eqn:Ec'; [|apply nth_error_None in Ec'; lia].
    destruct (Key i es vs c c' R Bd Ec Ec') as (Q1 & Q2 & Q3 & _ & Q5 & Q6 & (segs & F & T) & es' & segs' & R2 & F' & T').
    destruct (HA i c es segs A Ec (proj2 (wp_ring _ m i es) R) F HA1) as [-> _]. destruct (HA' i c' es' segs' A' Ec' R2 F' HA2) as [-> _].
    rewrite (traces_sum (fun e => Rabs (area2 c (fst e) (snd e)) / 2) segs _ (area2_rev c) T), (traces_sum (fun e => Rabs (area2 c' (fst e) (snd e)) / 2) segs' _ (area2_rev c') T').
    rewrite <- (map_length (vpoint M) vs). apply (poly_near2 d w 2); assumption.
Qed.

(** C102. A planar mesh of polygons of any shape, written to a VTK text file and read: the centres of the cells of the copy are
    where they were, up to the precision of the file (5.2e-6 of the largest coordinate [B]); the area of a cell with n sides
    differs by at most n ((w + 2 d)^2 - w^2), where w is the size of the box of the cell and d that precision. *)
Theorem C102_vtk2 : forall C (K : fp C) (m : Mesh (C * C)) types codes name B,
  precise K -> (val K (near K 0) == 0)%Q -> wf_mesh m -> m_dim m = 2%nat ->
  (forall c, (c < N.of_nat (length (m_cells m)))%N -> exists es vs, ring m c es /\ bounds (edges2 m) es vs) ->
  (forall e e' a b, joins (edges2 m) e a b -> joins (edges2 m) e' a b -> e = e') ->
  (N.of_nat (length (m_verts m)) <= INVALID)%N -> (N.of_nat (length (m_cells m)) <= INVALID)%N -> (N.of_nat (2 * length (m_faces m)) <= INVALID)%N ->
  Forall2 (fun t n => vtkCode2 t = Some n) types codes -> length types = length (m_cells m) ->
  ~ In nl name -> (length name < 1024)%nat ->
  (forall p i, In p (m_verts m) -> Rabs (nth i (real2 K p) 0) <= B) ->
  exists s m', writeVTK2text K m types = Ok s /\ (forall after, readVTK2 K (headerText name ++ s ++ after) (emptyMesh 2) [] = Ok (m', types)) /\
  exists ec cc ls As ec' cc' ls' As',
    computeCenters (K := numR) false (with_points (real2 K) m) = Ok [ec; cc] /\ computeMeasures2 (K := numR) (with_points (real2 K) m) cc = Ok (ls, As) /\
    computeCenters (K := numR) false (with_points (real2 K) m') = Ok [ec'; cc'] /\ computeMeasures2 (K := numR) (with_points (real2 K) m') cc' = Ok (ls', As') /\
    length cc = length (m_cells m) /\ length cc' = length (m_cells m) /\ length As = length (m_cells m) /\ length As' = length (m_cells m) /\
    let d := 52 / 10000000 * B in
    Forall2 (near_point d) cc cc' /\
    forall i es vs w A A', ring m i es -> bounds (edges2 m) es vs -> width w (map (vpoint (with_points (real2 K) m)) vs) ->
      nth_error As (N.to_nat i) = Some A -> nth_error As' (N.to_nat i) = Some A' ->
      Rabs (A' - A) <= INR (length vs) * ((w + 2 * d) * (w + 2 * d) - w * w).
Proof.
  intros C K m types codes name B PK Z W D Cells Uniq SV SC SF Types LT N1 N2 HB.
  apply (vtk2_near_copy C K m types codes name (52 / 10000000 * B)); try assumption.
  intros p p' Hp Hc. apply copy2_near; [exact PK| |exact Hc]. intros i. apply HB. exact Hp.
Qed.
Print Assumptions C102_vtk2.

Section Three.
Context {C : Type}.
Variable K : fp C.
Lemma subs_edges3 (m : Mesh (C * C * C)) e l : m_dim m = 3%nat -> nth_error (mesh_edges m) (N.to_nat e) = Some l -> subs (with_points (real3 K) m) 1 e = Ok l.
Proof. intros D H. unfold subs. cbn [m_dim m_mid with_points]. rewrite D. cbn [Nat.sub Nat.eqb]. apply vat_ok. exact H. Qed.
Lemma face_children (M : Mesh point) f face : m_dim M = 3%nat -> nth_error (m_faces M) (N.to_nat f) = Some face -> children M 2 f (f_subs face).
Proof. intros D Hf. unfold children. rewrite D. cbn [Nat.eqb]. unfold subs. rewrite D. cbn [Nat.sub Nat.eqb]. rewrite (proj2 (vat_ok _ _ _) Hf). reflexivity. Qed.
Lemma poly3 (m : Mesh (C * C * C)) f face vs cs c : wf_mesh m -> m_dim m = 3%nat -> centers_spec (with_points (real3 K) m) cs ->
  nth_error (m_faces m) (N.to_nat f) = Some face -> bounds (mesh_edges m) (f_subs face) vs -> at_ cs 2 f = Some c ->
  is_mean 3 (map (vpoint (with_points (real3 K) m)) vs) c /\
  exists segs, Forall2 (fun f e => edge_points (with_points (real3 K) m) f (fst e) (snd e)) (f_subs face) segs /\
    traces segs (cycle_edges (map (vpoint (with_points (real3 K) m)) vs)).
Proof.
  intros W D S Hf B Hc. set (M := with_points (real3 K) m) in *.
  assert (WM : wf_mesh M) by (apply wp_wf; exact W). assert (DM : m_dim M = 3%nat) by exact D.
  destruct (bounds_traces M (mesh_edges m) (vpoint M)) with (es := f_subs face) (vs := vs) as (segs & F & T); [|exact B|].
  { intros e a b H. apply edge_verts; [exact WM|apply (subs_edges3 m); assumption|rewrite DM; lia]. }
  split; [|exists segs; split; assumption]. rewrite <- DM.
  apply (polygon_center M cs f (f_subs face) segs); try assumption; [rewrite DM; lia|]. apply face_children; assumption.
Qed.
Lemma three_no_empty (m : Mesh (C * C * C)) : m_dim m = 3%nat -> (forall f, In f (m_faces m) -> exists vs, bounds (mesh_edges m) (f_subs f) vs) -> no_empty (with_points (real3 K) m).
Proof.
  intros D HB k i js Hk Hs ->. cbn [m_dim with_points] in Hk. rewrite D in Hk. assert (k = 2)%nat by lia. subst k.
  unfold subs in Hs. cbn [m_dim with_points] in Hs. rewrite D in Hs. cbn [Nat.sub Nat.eqb] in Hs. apply bind_ok in Hs as (f & Hf & Hs). injection Hs as Hs. apply vat_ok in Hf.
  destruct (HB f (nth_error_In _ _ Hf)) as (vs & (_ & L) & es' & P & _ & Ls & _). rewrite Hs in P. apply Permutation_nil in P. subst es'. simpl in Ls. lia.
Qed.
End Three.

(** What is left of a spatial mesh after writing and reading, if the copy of every vertex is near enough. *)
Lemma fpma_near_copy : forall C (K : fp C) (m : Mesh (C * C * C)) reserve d,
  wf_mesh m -> m_dim m = 3%nat ->
  (forall f, In f (m_faces m) -> exists vs, bounds (mesh_edges m) (f_subs f) vs) ->
  (N.of_nat (length (m_faces m)) <= INVALID)%N -> (N.of_nat (length (m_cells m)) <= INVALID)%N -> (N.of_nat (length (m_verts m)) < 2 ^ 64)%N ->
  (reserve = 0%nat \/ forall f, In f (m_faces m) -> (length (f_subs f) <= reserve)%nat) ->
  (forall p p', In p (m_verts m) -> copy3 K p p' -> near_point d (real3 K p) (real3 K p')) ->
  exists s m', writeFPMAtext K m = Ok s /\ readFPMA K reserve s (emptyMesh 3) = Ok m' /\
  exists ec fc cc ec' fc' cc',
    computeCenters (K := numR) false (with_points (real3 K) m) = Ok [ec; fc; cc] /\
    computeCenters (K := numR) false (with_points (real3 K) m') = Ok [ec'; fc'; cc'] /\
    length fc = length (m_faces m) /\ length cc = length (m_cells m) /\
    Forall2 (near_point d) fc fc' /\ Forall2 (near_point d) cc cc' /\
    (measurable3 (with_points (real3 K) m) fc -> measurable3 (with_points (real3 K) m') fc' ->
     exists ls Fs Vs ls' Fs' Vs', computeMeasures3 (K := numR) (with_points (real3 K) m) cc fc = Ok (ls, Fs, Vs) /\
       computeMeasures3 (K := numR) (with_points (real3 K) m') cc' fc' = Ok (ls', Fs', Vs') /\
       length Fs = length (m_faces m) /\ length Fs' = length (m_faces m) /\
       forall f face vs w F F', nth_error (m_faces m) (N.to_nat f) = Some face -> bounds (mesh_edges m) (f_subs face) vs ->
         width w (map (vpoint (with_points (real3 K) m)) vs) ->
         nth_error Fs (N.to_nat f) = Some F -> nth_error Fs' (N.to_nat f) = Some F' ->
         Rabs (F' - F) <= INR (length vs) * (sqrt 3 * ((w + 2 * d) * (w + 2 * d) - w * w))).
Proof.
  intros C K m reserve d W D HB SF SC SV HR HC.
  destruct (C80_fpma_characters C K m reserve W D HB SF SC SV HR) as (s & m' & Es & Er & W' & D' & V' & LF' & LC' & R' & P' & _).
  exists s, m'. split; [exact Es|]. split; [exact Er|].
  assert (HB' : forall f, In f (m_faces m') -> exists vs, bounds (mesh_edges m') (f_subs f) vs).
  { intros f' Hf'. apply In_nth_error in Hf' as [i Hi]. assert (i < length (m_faces m'))%nat by (apply nth_error_Some; congruence).
    destruct (nth_error (m_faces m) i) as [f|] eqn:Ef; [|apply nth_error_None in Ef; lia].
    destruct (HB f (nth_error_In _ _ Ef)) as (vs & Hvs). exists vs. apply (P' i f f' vs Ef Hi). exact Hvs. }
  pose proof (three_no_empty K m D HB) as HN. pose proof (three_no_empty K m' D' HB') as HN'.
  set (M := with_points (real3 K) m) in *. set (M' := with_points (real3 K) m') in *.
  assert (G : geo_mesh M) by (apply (wp_geo _ m 3); auto). assert (G' : geo_mesh M') by (apply (wp_geo _ m' 3); auto).
  assert (DM : m_dim M = 3%nat) by exact D. assert (DM' : m_dim M' = 3%nat) by exact D'.
  destruct (C46_centers M G HN) as (cs & E & S & _). destruct (C46_centers M' G' HN') as (cs' & E' & S' & _).
  assert (Shape : forall m cs, m_dim m = 3%nat -> centers_spec m cs -> exists ec fc cc, cs = [ec; fc; cc] /\ length fc = length (m_faces m) /\ length cc = length (m_cells m) /\
     (forall p, In p fc -> length p = 3%nat) /\ (forall p, In p cc -> length p = 3%nat)).
  { intros m0 cs0 D0 S0. pose proof (cs_len _ _ S0) as L. rewrite D0 in L. destruct cs0 as [|ec [|fc [|cc [|]]]]; try discriminate. exists ec, fc, cc. split; [reflexivity|].
    destruct (cs_tab _ _ S0 1%nat fc eq_refl) as [A1 A2]. destruct (cs_tab _ _ S0 2%nat cc eq_refl) as [A3 A4]. rewrite D0 in A2, A4. unfold n_elems in A1, A3. rewrite D0 in A1, A3. auto. }
  destruct (Shape M cs DM S) as (ec & fc & cc & -> & Lf & Lc & Pf & Pc). destruct (Shape M' cs' DM' S') as (ec' & fc' & cc' & -> & Lf' & Lc' & Pf' & Pc').
  pose proof Lf as Lf0. pose proof Lc as Lc0. pose proof Lf' as Lf0'. pose proof Lc' as Lc0'.
  change (m_faces M) with (m_faces m) in Lf. change (m_cells M) with (m_cells m) in Lc. change (m_faces M') with (m_faces m') in Lf'. change (m_cells M') with (m_cells m') in Lc'.
  rewrite LF' in Lf'. rewrite LC' in Lc'.
  exists ec, fc, cc, ec', fc', cc'. do 4 (split; [assumption|]).
  assert (NV : forall v, (v < N.of_nat (length (m_verts m)))%N -> near_point d (vpoint M v) (vpoint M' v)).
  { intros v Hv. destruct (nth_error (m_verts m) (N.to_nat v)) as [p|] eqn:Ep; [|apply nth_error_None in Ep; lia].
    destruct (Forall2_nth_l _ _ _ _ _ V' Ep) as (p' & Ep' & Hc).
    rewrite (vpoint_in M v (real3 K p)), (vpoint_in M' v (real3 K p')) by (cbn [M M' with_points m_verts]; rewrite nth_error_map, ?Ep, ?Ep'; reflexivity).
    apply HC; [eapply nth_error_In; exact Ep|exact Hc]. }
  assert (LV : forall v, (v < N.of_nat (length (m_verts m)))%N -> length (vpoint M v) = 3%nat /\ length (vpoint M' v) = 3%nat).
  { intros v Hv. pose proof (Forall2_length' _ _ _ V') as LL.
    assert (B1 : (N.to_nat v < length (m_verts M))%nat) by (cbn [M with_points m_verts]; rewrite map_length; lia).
    assert (B2 : (N.to_nat v < length (m_verts M'))%nat) by (cbn [M' with_points m_verts]; rewrite map_length; lia).
    split; [rewrite <- DM; apply (geo_pts _ G)|rewrite <- DM'; apply (geo_pts _ G')]; apply nth_In; assumption. }
  assert (Key : forall f face face' vs c c', nth_error (m_faces m) (N.to_nat f) = Some face -> nth_error (m_faces m') (N.to_nat f) = Some face' ->
    bounds (mesh_edges m) (f_subs face) vs -> nth_error fc (N.to_nat f) = Some c -> nth_error fc' (N.to_nat f) = Some c' ->
    is_mean 3 (map (vpoint M) vs) c /\ is_mean 3 (map (vpoint M') vs) c' /\ Forall2 (near_point d) (map (vpoint M) vs) (map (vpoint M') vs) /\ vs <> [] /\
    (forall p, In p (map (vpoint M) vs) -> length p = 3%nat) /\ (forall p, In p (map (vpoint M') vs) -> length p = 3%nat) /\
    (exists segs, Forall2 (fun f e => edge_points M f (fst e) (snd e)) (f_subs face) segs /\ traces segs (cycle_edges (map (vpoint M) vs))) /\
    (exists segs, Forall2 (fun f e => edge_points M' f (fst e) (snd e)) (f_subs face') segs /\ traces segs (cycle_edges (map (vpoint M') vs)))).
  { intros f face face' vs c c' Hf Hf' Bd Ec Ec'. pose proof (proj2 (P' _ _ _ vs Hf Hf') Bd) as Bd2.
    destruct (poly3 K m f face vs _ c W D S Hf Bd Ec) as [Q1 Q2]. destruct (poly3 K m' f face' vs _ c' W' D' S' Hf' Bd2 Ec') as [Q3 Q4].
    assert (Rng : forall v, In v vs -> (v < N.of_nat (length (m_verts m)))%N).
    { apply (bounds_verts _ _ _ _ Bd). intros e k v Hk Hv. assert (H1 : (1 <= 1 < m_dim M)%nat) by (rewrite DM; lia).
      destruct (wf_subs _ (geo_wf _ G) 1 e k H1 (subs_edges3 K m e k D Hk)) as (_ & Rg & _). specialize (Rg v Hv).
      unfold n_elems in Rg. cbn [Nat.sub Nat.eqb M with_points m_verts] in Rg. rewrite map_length in Rg. exact Rg. }
    splits; try assumption.
    - clear -Rng NV. induction vs as [|v vs IH]; cbn [map]; constructor; [apply NV, Rng; left; reflexivity|apply IH; intros; apply Rng; right; assumption].
    - destruct Bd as ((_ & L3) & _). intros ->. simpl in L3. lia.
    - intros p Hp. apply in_map_iff in Hp as (v & <- & Hv). apply LV, Rng, Hv.
    - intros p Hp. apply in_map_iff in Hp as (v & <- & Hv). apply LV, Rng, Hv. }
  assert (Face' : forall f face, nth_error (m_faces m) f = Some face -> exists face', nth_error (m_faces m') f = Some face').
  { intros f face Hf. destruct (nth_error (m_faces m') f) eqn:Ef; [eauto|]. apply nth_error_None in Ef. assert (f < length (m_faces m))%nat by (apply nth_error_Some; congruence). lia. }
  assert (NF : forall f c c', nth_error fc f = Some c -> nth_error fc' f = Some c' -> near_point d c c').
  { intros i c c' Ec Ec'. rewrite <- (Nat2N.id i) in Ec, Ec'.
    destruct (nth_error (m_faces m) (N.to_nat (N.of_nat i))) as [face|] eqn:Ef; [|apply nth_error_None in Ef; assert (N.to_nat (N.of_nat i) < length fc)%nat by (apply nth_error_Some; congruence); lia].
    destruct (Face' _ _ Ef) as (face' & Ef'). destruct (HB face (nth_error_In _ _ Ef)) as (vs & Bd).
    destruct (Key _ face face' vs c c' Ef Ef' Bd Ec Ec') as (Q1 & Q2 & Q3 & Q4 & _).
    apply (near_mean 3 d _ _ _ _ Q1 Q2); [|exact Q3]. destruct vs; [congruence|discriminate]. }
  splits.
  - apply Forall2_of_nth; [congruence|exact NF].
  - apply Forall2_of_nth; [congruence|]. intros i c c' Ec Ec'. rewrite <- (Nat2N.id i) in Ec, Ec'.
    assert (Hi : (N.of_nat i < N.of_nat (length (m_cells m)))%N) by (rewrite <- Lc; assert (N.to_nat (N.of_nat i) < length cc)%nat by (apply nth_error_Some; congruence); lia).
    destruct (wf_ring _ W _ Hi) as (fs & R).
    assert (Ch : children M 3 (N.of_nat i) fs) by (unfold children; rewrite DM; cbn [Nat.eqb]; apply wp_ring; exact R).
    assert (Ch' : children M' 3 (N.of_nat i) fs) by (unfold children; rewrite DM'; cbn [Nat.eqb]; apply wp_ring, R'; exact R).
    assert (H3 : (2 <= 3 <= m_dim M)%nat) by (rewrite DM; lia). assert (H3' : (2 <= 3 <= m_dim M')%nat) by (rewrite DM'; lia).
    destruct (cs_mean _ _ S 3 _ fs c H3 Ch Ec) as (ps & HF & Hm). destruct (cs_mean _ _ S' 3 _ fs c' H3' Ch' Ec') as (ps' & HF' & Hm').
    rewrite DM in Hm. rewrite DM' in Hm'. apply (near_mean 3 d ps ps'); [assumption|assumption| |].
    + intros ->. inversion HF. subst. apply (children_nonempty M 3 _ _ HN H3 Ch). reflexivity.
    + cbn [Nat.sub] in HF, HF'. clear -HF HF' NF. revert ps' HF'. induction HF as [|j p js ps Hp HF IHF]; intros ps' HF'; inversion HF' as [|? p' ? ps'' Hp' HF'' E1 E2]; subst; constructor; [|apply IHF; assumption].
      apply (NF (N.to_nat j)); [exact Hp|exact Hp'].
  - intros [M1 M2] [M1' M2'].
    destruct (C49_measures3 M cc fc G HN DM Pc Pf Lc0 Lf0 M1 M2) as (ls & Fs & Vs & EM & _ & LFs & _ & _ & HFs & _).
    destruct (C49_measures3 M' cc' fc' G' HN' DM' Pc' Pf' Lc0' Lf0' M1' M2') as (ls' & Fs' & Vs' & EM' & _ & LFs' & _ & _ & HFs' & _).
    change (m_faces M) with (m_faces m) in *. change (m_faces M') with (m_faces m') in *. pose proof LFs' as LFs2. rewrite LF' in LFs2.
    exists ls, Fs, Vs, ls', Fs', Vs'. splits; try assumption.
    intros f face vs w F F' Hf Bd HW HF1 HF2.
    assert (Hi : (N.to_nat f < length (m_faces m))%nat) by (apply nth_error_Some; congruence).
    destruct (nth_error fc (N.to_nat f)) as [c|] eqn:Ec; [|apply nth_error_None in Ec; lia].
    destruct (nth_error fc' (N.to_nat f)) as [c'|] eqn:Ec'; [|apply nth_error_None in Ec'; lia].
    destruct (Face' _ _ Hf) as (face' & Hf').
    destruct (Key f face face' vs c c' Hf Hf' Bd Ec Ec') as (Q1 & Q2 & Q3 & _ & Q5 & Q6 & (segs & Fg & T) & segs' & Fg' & T').
    rewrite (HFs f face c segs F Hf Ec Fg HF1), (HFs' f face' c' segs' F' Hf' Ec' Fg' HF2).
    rewrite (traces_sum (fun e => tri_area c (fst e) (snd e)) segs _ (tri_rev c) T), (traces_sum (fun e => tri_area c' (fst e) (snd e)) segs' _ (tri_rev c') T').
    rewrite <- (map_length (vpoint M) vs). apply (poly_near3 d w 3); try assumption. reflexivity.
Qed.

(** C102. A spatial mesh written to an FPMA text file and read: centres of faces and cells, areas of faces (planar or not). The
    areas need what computeMeasures needs to answer (C49), for the mesh and for its copy. *)
Theorem C102_fpma : forall C (K : fp C) (m : Mesh (C * C * C)) reserve B,
  precise K -> wf_mesh m -> m_dim m = 3%nat ->
  (forall f, In f (m_faces m) -> exists vs, bounds (mesh_edges m) (f_subs f) vs) ->
  (N.of_nat (length (m_faces m)) <= INVALID)%N -> (N.of_nat (length (m_cells m)) <= INVALID)%N -> (N.of_nat (length (m_verts m)) < 2 ^ 64)%N ->
  (reserve = 0%nat \/ forall f, In f (m_faces m) -> (length (f_subs f) <= reserve)%nat) ->
  (forall p i, In p (m_verts m) -> Rabs (nth i (real3 K p) 0) <= B) ->
  exists s m', writeFPMAtext K m = Ok s /\ readFPMA K reserve s (emptyMesh 3) = Ok m' /\
  exists ec fc cc ec' fc' cc',
    computeCenters (K := numR) false (with_points (real3 K) m) = Ok [ec; fc; cc] /\
    computeCenters (K := numR) false (with_points (real3 K) m') = Ok [ec'; fc'; cc'] /\
    length fc = length (m_faces m) /\ length cc = length (m_cells m) /\
    let d := 52 / 10000000 * B in
    Forall2 (near_point d) fc fc' /\ Forall2 (near_point d) cc cc' /\
    (measurable3 (with_points (real3 K) m) fc -> measurable3 (with_points (real3 K) m') fc' ->
     exists ls Fs Vs ls' Fs' Vs', computeMeasures3 (K := numR) (with_points (real3 K) m) cc fc = Ok (ls, Fs, Vs) /\
       computeMeasures3 (K := numR) (with_points (real3 K) m') cc' fc' = Ok (ls', Fs', Vs') /\
       length Fs = length (m_faces m) /\ length Fs' = length (m_faces m) /\
       forall f face vs w F F', nth_error (m_faces m) (N.to_nat f) = Some face -> bounds (mesh_edges m) (f_subs face) vs ->
         width w (map (vpoint (with_points (real3 K) m)) vs) ->
         nth_error Fs (N.to_nat f) = Some F -> nth_error Fs' (N.to_nat f) = Some F' ->
         Rabs (F' - F) <= INR (length vs) * (sqrt 3 * ((w + 2 * d) * (w + 2 * d) - w * w))).
Proof.
  intros C K m reserve B PK W D HB SF SC SV HR HC.
  apply (fpma_near_copy C K m reserve (52 / 10000000 * B)); try assumption.
  intros p p' Hp Hc. apply copy3_near; [exact PK| |exact Hc]. intros i. apply HC. exact Hp.
Qed.
Print Assumptions C102_fpma.

(** Non-vacuity: the two triangles of C81. The first one keeps its area up to 2e-4. *)
Example C102_instance_file : exists s m', writeVTK2text exactQ triQ [TRIANGLE; TRIANGLE] = Ok s /\
  readVTK2 exactQ (headerText (str "two triangles") ++ s ++ []) (emptyMesh 2) [] = Ok (m', [TRIANGLE; TRIANGLE]) /\
  exists cc ls A As cc' ls' A' As', computeMeasures2 (K := numR) (with_points (real2 exactQ) triQ) cc = Ok (ls, A :: As) /\
    computeMeasures2 (K := numR) (with_points (real2 exactQ) m') cc' = Ok (ls', A' :: As') /\ Rabs (A' - A) <= 2 / 10000.
Proof.
  destruct C81_instance2 as (Z & Cells & _).
  assert (Uniq : forall e e' a b, joins (edges2 triQ) e a b -> joins (edges2 triQ) e' a b -> e = e').
  { intros e e' a b H H'. unfold joins in *. change (edges2 triQ) with (edges2 twoTriangles) in *.
    apply N2Nat.inj. destruct (N.to_nat e) as [|[|[|[|[|k]]]]]; destruct (N.to_nat e') as [|[|[|[|[|k']]]]]; try reflexivity; exfalso; cbn in H, H';
      repeat match goal with K : _ \/ _ |- _ => destruct K end; try (destruct k; discriminate); try (destruct k'; discriminate); congruence. }
  assert (W : wf_mesh triQ) by (apply (wf_with_verts _ _ twoTriangles); try reflexivity; apply twoTriangles_wf).
  assert (HB : forall p i, In p (m_verts triQ) -> Rabs (nth i (real2 exactQ p) 0) <= 1).
  { intros p i Hp. cbn in Hp. destruct Hp as [<-|[<-|[<-|[<-|[]]]]]; destruct i as [|[|i]]; cbn; unfold Q2R; cbn; try (destruct i); apply Rabs_le; lra. }
  assert (S1 : (N.of_nat 4 <= INVALID)%N) by (apply N.leb_le; reflexivity). assert (S2 : (N.of_nat 2 <= INVALID)%N) by (apply N.leb_le; reflexivity). assert (S3 : (N.of_nat 10 <= INVALID)%N) by (apply N.leb_le; reflexivity).
  destruct (C102_vtk2 Q exactQ triQ [TRIANGLE; TRIANGLE] [5; 5]%N (str "two triangles") 1 exactQ_precise Z W eq_refl Cells Uniq S1 S2 S3) as
    (s & m' & Ew & Er & ec & cc & ls & As & ec' & cc' & ls' & As' & _ & EM & _ & EM' & _ & _ & LA & LA' & _ & HA).
  - repeat constructor.
  - reflexivity.
  - cbn. intuition discriminate.
  - cbn. lia.
  - exact HB.
  - exists s, m'. split; [exact Ew|]. split; [apply Er|]. change (length (m_cells triQ)) with 2%nat in LA, LA'.
    destruct As as [|A As]; [discriminate|]. destruct As' as [|A' As']; [discriminate|]. exists cc, ls, A, As, cc', ls', A', As'. split; [exact EM|]. split; [exact EM'|].
    destruct (Cells 0%N) as (es & vs & R & Bd); [cbn; lia|].
    assert (L3 : length vs = 3%nat).
    { assert (R0 : ring twoTriangles 0%N [0;1;2]%N) by (apply ring_iff; vm_compute; reflexivity).
      apply (ring_ext _ _ twoTriangles triQ 0%N _ eq_refl eq_refl) in R0. rewrite (ring_det _ _ _ _ R R0) in Bd.
      destruct Bd as (_ & es' & P & _ & Ls & _). apply Permutation_length in P. simpl in P. lia. }
    assert (HW : width 2 (map (vpoint (with_points (real2 exactQ) triQ)) vs)).
    { assert (H1 : forall v i, Rabs (nth i (vpoint (with_points (real2 exactQ) triQ) v) 0) <= 1).
      { intros v i. unfold vpoint. destruct (Nat.lt_ge_cases (N.to_nat v) 4) as [Hv|Hv].
        - destruct (nth_error (m_verts triQ) (N.to_nat v)) as [p|] eqn:Ep; [|apply nth_error_None in Ep; cbn in Ep; lia].
          assert (Ev : nth_error (m_verts (with_points (real2 exactQ) triQ)) (N.to_nat v) = Some (real2 exactQ p)) by (cbn [with_points m_verts]; rewrite nth_error_map, Ep; reflexivity). rewrite (nth_error_nth _ _ [] Ev). apply HB. eapply nth_error_In. exact Ep.
        - rewrite (nth_overflow (m_verts (with_points (real2 exactQ) triQ))) by (cbn; lia). destruct i; simpl; rewrite Rabs_R0; lra. }
      intros p q i Hp Hq. apply in_map_iff in Hp as (v & <- & _). apply in_map_iff in Hq as (u & <- & _). pose proof (H1 v i) as A1. pose proof (H1 u i) as A2.
      unfold Rminus. eapply Rle_trans; [apply Rabs_triang|]. rewrite Rabs_Ropp. lra. }
    pose proof (HA 0%N es vs 2 A A' R Bd HW eq_refl eq_refl) as Q. rewrite L3 in Q. simpl in Q. lra.
Qed.

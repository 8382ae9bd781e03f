(** C77: planar meshes of convex polygons, from the file to the finite-volume identities. Exact real arithmetic. *)
From Coq Require Import Reals Lra Permutation.
From Verif Require Import P_Base M_Conn M_Index M_Mesh M_Apply S_Mesh P_Apply M_Vec S_Vec P_Vec M_Geom S_Geom P_Geom P_Centers T_Centers P_Normals
  S_Polygon P_Polygon S_Flux P_Flux T_Flux T_Measure2 T_Normals T_Gauss2 M_Object T_Object S_Convex P_Convex Ex_Mesh Ex_Geom.
Local Open Scope R_scope.

Lemma init_tess2 (u : UMesh numR) tess : geo_mesh (u_mesh u) -> m_dim (u_mesh u) = 2%nat ->
  initializeCenters (K := numR) tess u = initializeCenters (K := numR) false u.
Proof.
  intros G D. destruct tess; [|reflexivity]. unfold initializeCenters.
  assert (HN : no_empty (u_mesh u)) by (intros k i js Hk; cbn in Hk; nr; lia).
  destruct (C46_tessellated (u_mesh u) G HN) as [E _]. specialize (E ltac:(nr; lia)).
  exact (f_equal (fun o => bind o _) E).
Qed.

(** C77. For a planar mesh of convex polygons whose edges run counterclockwise along their left cell: initializeCenters puts the
    centre of every cell at the mean of its vertices; computeElementMeasures gives every cell the area of its polygon
    (shoelace formula; it is positive) and every edge its length; the normals of computeFaceNormals are unit vectors orthogonal to
    the edges that point from the left cell to the right cell (out of the mesh at the boundary when the cell is the left one);
    and the flux of the position field through the boundary is twice the total area. *)
Theorem C77_convex2 : forall (u : UMesh numR) poly tess, let m := u_mesh u in convex_mesh2 m poly ->
  exists u' ls As ns, initializeCenters (K := numR) tess u = Ok u' /\ u_mesh u' = m /\ length (u_cc u') = length (m_cells m) /\
    elementMeasures (K := numR) tess u' = Ok [ls; As] /\ faceNormals (K := numR) tess u' = Ok ns /\
    length As = length (m_cells m) /\
    (forall i, is_cell m i = true -> exists c, nth_error (u_cc u') (N.to_nat i) = Some c /\ is_mean 2 (poly i) c /\
       nth_error As (N.to_nat i) = Some (shoelace (poly i)) /\ 0 < shoelace (poly i)) /\
    (forall f face a b, nth_error (m_faces m) (N.to_nat f) = Some face -> edge_points m f a b ->
       exists n, nth_error ns (N.to_nat f) = Some n /\ nth_error ls (N.to_nat f) = Some (dist a b) /\ 0 < dist a b /\
         length n = 2%nat /\ sprod n n = 1 /\ sprod n a = sprod n b /\
         (forall x, nth_error (u_cc u') (N.to_nat (cellLeft (bc (f_conn face)))) = Some x -> sprod n x < sprod n a) /\
         (forall x, nth_error (u_cc u') (N.to_nat (cellRight (bc (f_conn face)))) = Some x -> sprod n a < sprod n x)) /\
    (forall P, (forall f, (f < N.of_nat (length (m_faces m)))%N -> on_edge m f (P f)) ->
       2 * Rsum As = Rsum (map (fun f => boundary_sign m f * (nth (N.to_nat f) ls 0 * sprod (nth (N.to_nat f) ns []) (P f))) (seqN (length (m_faces m))))).
Proof.
  intros u poly tess m [G D M Cell Edge].
  assert (HN : no_empty m) by (intros k i js Hk; cbn in Hk; nr; lia).
  destruct (C76_initializeCenters u G HN) as (cs & fc & cc & E & S & Hf & Hc & Lf & Lc). cbv zeta in *. fold m in E, S, Hf, Hc, Lf, Lc.
  assert (Lcc : forall p, In p cc -> length p = 2%nat) by (intros p Hp; pose proof (proj2 (cs_tab _ _ S _ _ Hc) p Hp) as Q; nr; lia).
  assert (Dm : m_dim m = 2%nat) by exact D.
  (* the centres *)
  assert (Cen : forall i c, nth_error cc (N.to_nat i) = Some c -> is_cell m i = true /\ is_mean 2 (poly i) c).
  { intros i c Hi. assert (Hlt : is_cell m i = true).
    { unfold is_cell. apply N.ltb_lt. assert (N.to_nat i < length cc)%nat by (apply nth_error_Some; congruence). nr. lia. }
    split; [assumption|]. destruct (Cell i Hlt) as (_ & fs & es & HR & HF & HT). rewrite <- Dm.
    apply (polygon_center m cs i fs es (poly i) c S ltac:(nr; lia)); try assumption.
    - unfold children. nr. rewrite Dm. exact HR.
    - unfold at_. rewrite <- Dm. nr. rewrite Hc. exact Hi. }
  assert (Star : forall i, (i < N.of_nat (length (m_cells m)))%N -> star_cell2 m cc i).
  { intros i Hi. assert (Hcl : is_cell m i = true) by (apply N.ltb_lt; exact Hi). destruct (Cell i Hcl) as (HX & fs & es & HR & HF & HT).
    destruct (nth_error cc (N.to_nat i)) as [c|] eqn:Ei; [|apply nth_error_None in Ei; nr; lia].
    exists c, fs, es, (poly i). splits; try assumption.
    - apply Lcc. eapply nth_error_In. exact Ei.
    - left. intros e He. apply Rlt_le. eapply convex_center; [exact HX|apply (Cen i c Ei)|exact He]. }
  assert (CCW : edges_ccw_left m cc).
  { intros f face a b Hface Hab. destruct (Edge f face a b Hface Hab) as (HL & HR & Hone).
    assert (Ar : forall i a b, is_cell m i = true -> In (a, b) (cycle_edges (poly i)) -> a <> b).
    { intros i x y Hi Hin ->. destruct (Cell i Hi) as (HX & _). destruct (HX _ Hin) as (_ & v & _ & Hv). cbn [fst snd] in Hv. rewrite area2_degenerate in Hv. lra. }
    splits.
    - destruct Hone as [Hi|Hi]; [apply (Ar _ _ _ Hi), HL; assumption|]. intros Q. exact (Ar _ _ _ Hi (HR Hi) (eq_sym Q)).
    - intros x Hx. destruct (Cen _ x Hx) as [Hi Hm]. destruct (Cell _ Hi) as (HX & _). exact (convex_center _ x (a, b) HX Hm (HL Hi)).
    - intros x Hx. destruct (Cen _ x Hx) as [Hi Hm]. destruct (Cell _ Hi) as (HX & _). pose proof (convex_center _ x (b, a) HX Hm (HR Hi)) as Q.
      cbn [fst snd] in Q. rewrite area2_rev in Q. lra. }
  destruct (C45_measures2 m cc G D Lc) as (ls & As & EM & Lls & LAs & Hl & HA).
  destruct (C44_normals2 m G D) as (ns & EN & Lns & Hn).
  exists (mkU m fc cc (u_bcc u)), ls, As, ns. splits.
  - refine (eq_trans (init_tess2 u tess G D) _). exact E.
  - reflexivity.
  - exact Lc.
  - unfold elementMeasures. cbn [u_mesh u_cc u_fc]. assert (D' : @m_dim (vec numR) m = 2%nat) by exact D. rewrite D'. refine (eq_trans (f_equal (fun o => bind o _) EM) _). reflexivity.
  - unfold faceNormals. cbn [u_mesh u_cc u_fc]. assert (D' : @m_dim (vec numR) m = 2%nat) by exact D. rewrite D'. exact EN.
  - exact LAs.
  - intros i Hi. destruct (Cell i Hi) as (HX & fs & es & HR & HF & HT).
    assert (Hlt : (i < N.of_nat (length (m_cells m)))%N) by (apply N.ltb_lt; exact Hi).
    cbn [u_cc]. destruct (nth_error cc (N.to_nat i)) as [c|] eqn:Ei; [|apply nth_error_None in Ei; nr; lia]. exists c. split; [reflexivity|].
    destruct (Cen i c Ei) as [_ Hm]. split; [exact Hm|].
    assert (Hp : 0 < shoelace (poly i)).
    { apply (convex_area _ c); [|assumption|assumption]. intros Q. apply traces_length in HT. rewrite Q in HT. simpl in HT.
      apply Forall2_length' in HF. destruct HR as (f0 & r & -> & _). simpl in HF. lia. }
    split; [|exact Hp]. destruct (nth_error As (N.to_nat i)) as [A|] eqn:EA; [|apply nth_error_None in EA; nr; lia].
    f_equal. destruct (HA i c fs es A Ei HR HF EA) as (_ & Q). destruct (Q _ HT) as (_ & Q'). rewrite Q'; [apply Rabs_right; lra|].
    left. intros e He. apply Rlt_le. eapply convex_center; eassumption.
  - intros f face a b Hface Hab. destruct (CCW f face a b Hface Hab) as (Hne & HL & HR).
    assert (Hflt : (N.to_nat f < length (m_faces m))%nat) by (apply nth_error_Some; congruence).
    destruct (nth_error ns (N.to_nat f)) as [n|] eqn:En; [|apply nth_error_None in En; nr; lia].
    destruct (nth_error ls (N.to_nat f)) as [l|] eqn:El; [|apply nth_error_None in El; nr; lia].
    destruct (Hn f a b n Hab En Hne) as (Ln & Hu & Ho & Hp). destruct (edge_points_length _ _ _ _ G Hab) as [La Lb].
    exists n. splits; try assumption; try reflexivity.
    + f_equal. exact (Hl f a b l Hab El).
    + apply dist_pos; congruence.
    + intros x Hx. apply (proj2 (Hp x (Lcc _ (nth_error_In _ _ Hx)))). apply HL. exact Hx.
    + intros x Hx. pose proof (HR x Hx) as Ha. destruct (Hp x (Lcc _ (nth_error_In _ _ Hx))) as [Q _].
      assert (Hd : 0 < dist a b) by (apply dist_pos; congruence). nra.
  - intros P HP. apply (C74_total_area m cc ls As ns P G D Lc M CCW Star HP EM EN).
Qed.
Print Assumptions C77_convex2.

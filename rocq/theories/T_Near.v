(** C102: geometry of a mesh whose vertices have moved a little. Exact real arithmetic. *)
From Coq Require Import Reals Lra Permutation.
From Verif Require Import P_Base M_Conn M_Index M_Mesh M_Apply S_Mesh P_Apply M_Vec S_Vec P_Vec M_Geom S_Geom P_Geom P_Centers T_Centers S_Polygon P_Polygon
  T_Measure2 T_Volume S_Near P_Near Ex_Mesh Ex_Geom.
Local Open Scope R_scope.

(** C102. No centre moves further than the vertices do. *)
Theorem C102_centres : forall d m m', geo_mesh m -> no_empty m -> moved d m m' ->
  exists cs cs', computeCenters (K := numR) false m = Ok cs /\ computeCenters (K := numR) false m' = Ok cs' /\
    forall k i c, (1 <= k <= m_dim m)%nat -> at_ cs k i = Some c -> exists c', at_ cs' k i = Some c' /\ near_point d c c'.
Proof.
  intros d m m' G HN MV. destruct (C46_centers m G HN) as (cs & E & S & _).
  destruct (C46_centers m' (mv_geo _ _ _ MV G) (mv_no_empty _ _ _ MV HN)) as (cs' & E' & S' & _).
  exists cs, cs'. split; [exact E|]. split; [exact E'|]. intros k i c Hk Hc.
  assert (Hk' : (1 <= k <= m_dim m')%nat) by (rewrite (mv_dim _ _ _ MV); exact Hk).
  assert (Hi : (i < N.of_nat (n_elems m k))%N) by (apply (at_lt _ _ _ i S Hk); eauto).
  rewrite <- (mv_n_elems _ _ _ MV) in Hi. apply (at_lt _ _ _ i S' Hk') in Hi as (c' & Hc'). exists c'. split; [exact Hc'|].
  eapply mv_centers; eassumption.
Qed.
Print Assumptions C102_centres.

Lemma edge_length_near d m m' e a b a' b' : geo_mesh m -> moved d m m' -> edge_points m e a b -> edge_points m' e a' b' ->
  Rabs (dist a' b' - dist a b) <= sqrt (INR (m_dim m)) * (2 * d).
Proof.
  intros G MV H H'. destruct (mv_edge _ _ _ MV e a b H) as (a'' & b'' & H'' & Na & Nb).
  destruct (edge_points_det _ _ _ _ _ _ H' H'') as [-> ->]. destruct (edge_points_length _ _ _ _ G H) as [La Lb].
  destruct (edge_points_length _ _ _ _ (mv_geo _ _ _ MV G) H'') as [La' Lb']. rewrite (mv_dim _ _ _ MV) in La', Lb'. rewrite <- La.
  apply dist_near; congruence || assumption.
Qed.

(** C102. The plane: lengths of edges and areas of cells, the cells of any shape. [w]: size of the box of the cell. *)
Theorem C102_measures2 : forall d m m', geo_mesh m -> m_dim m = 2%nat -> moved d m m' ->
  exists ec cc ls As ec' cc' ls' As',
    computeCenters (K := numR) false m = Ok [ec; cc] /\ computeMeasures2 (K := numR) m cc = Ok (ls, As) /\
    computeCenters (K := numR) false m' = Ok [ec'; cc'] /\ computeMeasures2 (K := numR) m' cc' = Ok (ls', As') /\
    length ls = length (m_faces m) /\ length ls' = length (m_faces m) /\ length As = length (m_cells m) /\ length As' = length (m_cells m) /\
    (forall e l l', nth_error ls e = Some l -> nth_error ls' e = Some l' -> Rabs (l' - l) <= 2 * sqrt 2 * d) /\
    (forall i fs es w A A', ring m i fs -> Forall2 (fun f e => edge_points m f (fst e) (snd e)) fs es -> width w (edge_ends es) ->
       nth_error As (N.to_nat i) = Some A -> nth_error As' (N.to_nat i) = Some A' ->
       Rabs (A' - A) <= INR (length fs) * ((w + 2 * d) * (w + 2 * d) - w * w)).
Proof.
  intros d m m' G D MV. assert (HN : no_empty m) by (intros k i js Hk; lia).
  pose proof (mv_geo _ _ _ MV G) as G'. pose proof (mv_no_empty _ _ _ MV HN) as HN'. assert (D' : m_dim m' = 2%nat) by (rewrite (mv_dim _ _ _ MV); exact D).
  destruct (C46_centers m G HN) as (cs & E & S & _). destruct (C46_centers m' G' HN') as (cs' & E' & S' & _).
  assert (Shape : forall m cs, m_dim m = 2%nat -> centers_spec m cs -> exists ec cc, cs = [ec; cc] /\ length cc = length (m_cells m)).
  { intros m0 cs0 D0 S0. pose proof (cs_len _ _ S0) as L. rewrite D0 in L. destruct cs0 as [|ec [|cc [|]]]; try discriminate. exists ec, cc. split; [reflexivity|].
    rewrite (proj1 (cs_tab _ _ S0 1%nat cc eq_refl)). unfold n_elems. rewrite D0. reflexivity. }
  destruct (Shape m cs D S) as (ec & cc & -> & Lc). destruct (Shape m' cs' D' S') as (ec' & cc' & -> & Lc').
  destruct (C45_measures2 m cc G D Lc) as (ls & As & EM & Ll & LA & Hl & HA). destruct (C45_measures2 m' cc' G' D' Lc') as (ls' & As' & EM' & Ll' & LA' & Hl' & HA').
  rewrite (mv_faces _ _ _ MV) in Ll'. rewrite (mv_cells _ _ _ MV) in LA'.
  exists ec, cc, ls, As, ec', cc', ls', As'. splits; try assumption.
  - intros e l l' He He'. rewrite <- (Nat2N.id e) in He, He'.
    assert (Hlt : (N.of_nat e < N.of_nat (n_elems m 1))%N).
    { assert (e < length ls)%nat by (apply nth_error_Some; rewrite Nat2N.id in He; congruence). assert (F : n_elems m 1 = length (m_faces m)) by (pose proof (n_elems_face m) as F; nr; rewrite D in F; apply F; lia). lia. }
    destruct (edge_points_total m _ G Hlt) as (a & b & Hab). destruct (mv_edge _ _ _ MV _ _ _ Hab) as (a' & b' & Hab' & _).
    rewrite (Hl _ _ _ _ Hab He), (Hl' _ _ _ _ Hab' He'). pose proof (edge_length_near d m m' _ _ _ _ _ G MV Hab Hab') as Q.
    rewrite D in Q. change (INR 2) with (1 + 1) in Q. replace (1 + 1) with 2 in Q by ring. lra.
  - intros i fs es w A A' HR HE HW HA1 HA2.
    assert (Hi : (N.to_nat i < length (m_cells m))%nat) by (rewrite <- LA; apply nth_error_Some; congruence).
    destruct (nth_error cc (N.to_nat i)) as [c|] eqn:Ec; [|apply nth_error_None in Ec; nr; lia].
    rewrite (mv_cells _ _ _ MV) in Lc'. destruct (nth_error cc' (N.to_nat i)) as [c'|] eqn:Ec'; [|apply nth_error_None in Ec'; nr; lia].
    destruct (mv_edges _ _ _ MV fs es HE) as (es' & HE' & NE).
    destruct (HA i c fs es A Ec HR HE HA1) as [-> _]. destruct (HA' i c' fs es' A' Ec' (proj2 (mv_ring _ _ _ MV i fs) HR) HE' HA2) as [-> _].
    assert (Nc : near_point d c c') by (apply (mv_centers _ _ _ MV _ _ G HN S S' 2 i); [lia|exact Ec|exact Ec']).
    assert (Ch : children m 2 i fs) by (unfold children; rewrite D; exact HR).
    assert (H2 : (2 <= 2 <= m_dim m)%nat) by (rewrite D; lia).
    destruct (cs_mean _ _ S 2 i fs c H2 Ch Ec) as (ps & HP & Hm).
    destruct (center_box m _ 2 fs es c ps w G S (children_nonempty m 2 _ _ HN H2 Ch) HE HP Hm HW (eq_sym D)) as [_ HB].
    replace (length fs) with (length es) by (symmetry; apply (Forall2_length' _ _ _ HE)).
    apply Rsum_near. clear -NE HB Nc. induction NE as [|e e' es es' [N1 N2] NE IH]; constructor.
    + destruct (HB e (or_introl eq_refl)) as [B1 B2]. apply area2_near; assumption.
    + apply IH. intros; apply HB; right; assumption.
Qed.
Print Assumptions C102_measures2.

(** C102. The space: lengths of edges and areas of faces (planar or not), as far as computeMeasures answers (C49): no edge of
    either mesh is degenerate and no face centre lies on the line of the face's first edge. *)
Definition measurable3 (m : Mesh point) (fc : list point) : Prop :=
  (forall e a b, edge_points m e a b -> a <> b) /\
  (forall f face e0 es a b c, nth_error (m_faces m) (N.to_nat f) = Some face -> f_subs face = e0 :: es -> edge_points m e0 a b ->
     nth_error fc (N.to_nat f) = Some c -> tri_area c a b <> 0).
Theorem C102_measures3 : forall d m m' ec fc cc ec' fc' cc', geo_mesh m -> no_empty m -> m_dim m = 3%nat -> moved d m m' ->
  computeCenters (K := numR) false m = Ok [ec; fc; cc] -> computeCenters (K := numR) false m' = Ok [ec'; fc'; cc'] ->
  measurable3 m fc -> measurable3 m' fc' ->
  exists ls Fs Vs ls' Fs' Vs', computeMeasures3 (K := numR) m cc fc = Ok (ls, Fs, Vs) /\ computeMeasures3 (K := numR) m' cc' fc' = Ok (ls', Fs', Vs') /\
    length ls = n_elems m 1 /\ length ls' = n_elems m 1 /\ length Fs = length (m_faces m) /\ length Fs' = length (m_faces m) /\
    (forall e l l', nth_error ls e = Some l -> nth_error ls' e = Some l' -> Rabs (l' - l) <= 2 * sqrt 3 * d) /\
    (forall f face es w F F', nth_error (m_faces m) (N.to_nat f) = Some face -> Forall2 (fun f e => edge_points m f (fst e) (snd e)) (f_subs face) es ->
       width w (edge_ends es) -> nth_error Fs (N.to_nat f) = Some F -> nth_error Fs' (N.to_nat f) = Some F' ->
       Rabs (F' - F) <= INR (length (f_subs face)) * (sqrt 3 * ((w + 2 * d) * (w + 2 * d) - w * w))).
Proof.
  intros d m m' ec fc cc ec' fc' cc' G HN D MV E E' [M1 M2] [M1' M2'].
  pose proof (mv_geo _ _ _ MV G) as G'. pose proof (mv_no_empty _ _ _ MV HN) as HN'. assert (D' : m_dim m' = 3%nat) by (rewrite (mv_dim _ _ _ MV); exact D).
  assert (S : centers_spec m [ec; fc; cc]).
  { destruct (C46_centers m G HN) as (cs & E0 & S & _). pose proof (eq_trans (eq_sym E0) E) as Q. injection Q as ->. exact S. }
  assert (S' : centers_spec m' [ec'; fc'; cc']).
  { destruct (C46_centers m' G' HN') as (cs & E0 & S0 & _). pose proof (eq_trans (eq_sym E0) E') as Q. injection Q as ->. exact S0. }
  assert (Shape : forall m ec fc cc, m_dim m = 3%nat -> centers_spec m [ec; fc; cc] ->
    length fc = length (m_faces m) /\ length cc = length (m_cells m) /\ (forall p, In p fc -> length p = 3%nat) /\ (forall p, In p cc -> length p = 3%nat)).
  { intros m0 ec0 fc0 cc0 D0 S0. destruct (cs_tab _ _ S0 1%nat fc0 eq_refl) as [A B]. destruct (cs_tab _ _ S0 2%nat cc0 eq_refl) as [A2 B2].
    rewrite D0 in B, B2. unfold n_elems in A, A2. rewrite D0 in A, A2. auto. }
  destruct (Shape m ec fc cc D S) as (L1 & L2 & P1 & P2). destruct (Shape m' ec' fc' cc' D' S') as (L1' & L2' & P1' & P2').
  destruct (C49_measures3 m cc fc G HN D P2 P1 L2 L1 M1 M2) as (ls & Fs & Vs & EM & Ll & LF & _ & Hl & HF & _).
  destruct (C49_measures3 m' cc' fc' G' HN' D' P2' P1' L2' L1' M1' M2') as (ls' & Fs' & Vs' & EM' & Ll' & LF' & _ & Hl' & HF' & _).
  rewrite (mv_n_elems _ _ _ MV) in Ll'. pose proof LF' as LF2. rewrite (mv_faces _ _ _ MV) in LF2, L1'.
  exists ls, Fs, Vs, ls', Fs', Vs'. splits; try assumption.
  - intros e l l' He He'. rewrite <- (Nat2N.id e) in He, He'.
    assert (Hlt : (N.of_nat e < N.of_nat (n_elems m 1))%N) by (assert (e < length ls)%nat by (apply nth_error_Some; rewrite Nat2N.id in He; congruence); lia).
    destruct (edge_points_total m _ G Hlt) as (a & b & Hab). destruct (mv_edge _ _ _ MV _ _ _ Hab) as (a' & b' & Hab' & _).
    rewrite (Hl _ _ _ _ Hab He), (Hl' _ _ _ _ Hab' He'). pose proof (edge_length_near d m m' _ _ _ _ _ G MV Hab Hab') as Q.
    rewrite D in Q. simpl in Q. replace (1 + 1 + 1) with 3 in Q by ring. lra.
  - intros f face es w F F' Hf HE HW HF1 HF2.
    assert (Hi : (N.to_nat f < length (m_faces m))%nat) by (apply nth_error_Some; congruence).
    destruct (nth_error fc (N.to_nat f)) as [c|] eqn:Ec; [|apply nth_error_None in Ec; nr; lia].
    destruct (nth_error fc' (N.to_nat f)) as [c'|] eqn:Ec'; [|apply nth_error_None in Ec'; nr; lia].
    destruct (mv_edges _ _ _ MV _ es HE) as (es' & HE' & NE).
    rewrite (HF f face c es F Hf Ec HE HF1). rewrite <- (mv_faces _ _ _ MV) in Hf. rewrite (HF' f face c' es' F' Hf Ec' HE' HF2).
    rewrite (mv_faces _ _ _ MV) in Hf.
    assert (Nc : near_point d c c') by (apply (mv_centers _ _ _ MV _ _ G HN S S' 2 f); [rewrite D; lia|exact Ec|exact Ec']).
    assert (Ch : children m 2 f (f_subs face)).
    { unfold children. rewrite D. cbn [Nat.eqb]. unfold subs. rewrite D. cbn [Nat.sub Nat.eqb]. rewrite (proj2 (vat_ok _ _ _) Hf). reflexivity. }
    assert (H2 : (2 <= 2 <= m_dim m)%nat) by (rewrite D; lia).
    destruct (cs_mean _ _ S 2 f _ c H2 Ch Ec) as (ps & HP & Hm).
    destruct (center_box m _ 3 _ es c ps w G S (children_nonempty m 2 _ _ HN H2 Ch) HE HP Hm HW (eq_sym D)) as [_ HB].
    replace (length (f_subs face)) with (length es) by (symmetry; apply (Forall2_length' _ _ _ HE)).
    assert (LC : length c = 3%nat) by (apply P1; eapply nth_error_In; exact Ec). assert (LC' : length c' = 3%nat) by (apply P1'; eapply nth_error_In; exact Ec').
    apply Rsum_near. clear -NE HB Nc LC LC' HE HE' G G' D D'. revert es es' NE HB HE HE'. induction (f_subs face) as [|j js IH]; intros es es' NE HB HE HE'.
    + inversion HE; inversion HE'; subst. constructor.
    + inversion HE as [|? e ? er H1 H2 Q1 Q2]; subst. inversion HE' as [|? e' ? er' H1' H2' Q1 Q2]; subst. inversion NE as [|? ? ? ? [N1 N2] NE' Q1 Q2]; subst. constructor.
      * destruct (HB e (or_introl eq_refl)) as [B1 B2]. destruct (edge_points_length _ _ _ _ G H1) as [A1 A2]. destruct (edge_points_length _ _ _ _ G' H1') as [A3 A4].
        apply tri_near; congruence || assumption.
      * apply (IH er er'); try assumption. intros; apply HB; right; assumption.
Qed.
Print Assumptions C102_measures3.

(** Non-vacuity: the tetrahedron of C49 and the same moved by a hundredth. *)
Definition push : point := [/100; - /100; /100].
Lemma tet_measurable : measurable3 tetR tetFC.
Proof.
  assert (HE : forall e a b, edge_points tetR e a b -> In (e, (a, b)) [(0%N, ([0;0;0],[1;0;0])); (1%N, ([0;0;0],[0;1;0])); (2%N, ([0;0;0],[0;0;1]));
     (3%N, ([1;0;0],[0;1;0])); (4%N, ([0;1;0],[0;0;1])); (5%N, ([1;0;0],[0;0;1]))]).
  { intros e a b (i & j & Hs & Hi & Hj). unfold subs in Hs. cbn [m_dim tetR with_points tetMesh Nat.sub Nat.eqb m_mid nth_error] in Hs.
    apply vat_ok in Hs. rewrite <- (N2Nat.id e).
    destruct (N.to_nat e) as [|[|[|[|[|[|k]]]]]]; cbn [nth_error] in Hs;
      try (injection Hs as <- <-; simpl in Hi, Hj; injection Hi as <-; injection Hj as <-; simpl; auto 10; fail).
    destruct k; discriminate. }
  split.
  - intros e a b H. apply HE in H. simpl in H.
    repeat (destruct H as [Q|H]; [injection Q as _ <- <-; intros Z; injection Z; intros; lra|]). destruct H.
  - assert (HFs : forall f face c, nth_error (m_faces tetR) (N.to_nat f) = Some face -> nth_error tetFC (N.to_nat f) = Some c ->
      In (f_subs face, c) [([3;4;5]%N, [/3; /3; /3]); ([2;4;1]%N, [0; /3; /3]); ([0;5;2]%N, [/3; 0; /3]); ([1;3;0]%N, [/3; /3; 0])]).
    { intros f face c Hf Hc. apply (map_nth_error f_subs) in Hf.
      change (map f_subs (m_faces tetR)) with [[3;4;5]%N; [2;4;1]%N; [0;5;2]%N; [1;3;0]%N] in Hf. unfold tetFC in Hc.
      destruct (N.to_nat f) as [|[|[|[|k]]]]; cbn [nth_error] in Hf, Hc; try (injection Hf as <-; injection Hc as <-; simpl; auto 10; fail).
      destruct k; discriminate. }
    intros f face e0 es a b c Hf Hs Hab Hc. pose proof (HFs f face c Hf Hc) as H. rewrite Hs in H. apply HE in Hab. apply tet_gram.
    simpl in H. repeat (destruct H as [Q|H]; [injection Q as <- _ <-; simpl in Hab;
      repeat (destruct Hab as [Q|Hab]; [first [discriminate Q | injection Q as <- <-; simpl; lra]|]); destruct Hab|]). destruct H.
Qed.
Lemma tri_shift t c a b : length t = 3%nat -> length c = 3%nat -> length a = 3%nat -> length b = 3%nat -> tri_area (shift t c) (shift t a) (shift t b) = tri_area c a b.
Proof.
  intros Lt Lc La Lb. destruct t as [|t0 [|t1 [|t2 [|]]]]; try discriminate. destruct c as [|c0 [|c1 [|c2 [|]]]]; try discriminate.
  destruct a as [|a0 [|a1 [|a2 [|]]]]; try discriminate. destruct b as [|b0 [|b1 [|b2 [|]]]]; try discriminate.
  unfold tri_area. cbv zeta. f_equal. f_equal. simpl. ring.
Qed.
Example C102_instance : geo_mesh tetR /\ no_empty tetR /\ moved (/100) tetR (translate push tetR) /\
  measurable3 tetR tetFC /\ measurable3 (translate push tetR) (map (shift push) tetFC).
Proof.
  assert (G : geo_mesh tetR).
  { constructor; [apply wf_meshb_sound; apply (with_points_wf pt3 tetMesh); vm_compute; reflexivity|].
    simpl. intros p H. repeat destruct H as [<-|H]; try reflexivity. destruct H. }
  splits; [exact G|apply no_empty_faces; reflexivity| |apply tet_measurable|].
  - constructor; try reflexivity.
    cbn [translate m_verts]. assert (HL : forall p, In p (m_verts tetR) -> length p = 3%nat) by apply (geo_pts _ G).
    revert HL. induction (m_verts tetR) as [|p l IH]; intros HL; cbn [map]; constructor; [|apply IH; intros; apply HL; right; assumption].
    specialize (HL p (or_introl eq_refl)). split; [apply shift_length; rewrite HL; reflexivity|].
    destruct p as [|x [|y [|z [|]]]]; try discriminate HL. intros [|[|[|[|i]]]]; simpl; apply Rabs_le; lra.
  - destruct tet_measurable as [M1 M2].
    assert (EP : forall e a b, edge_points (translate push tetR) e a b -> exists a0 b0, edge_points tetR e a0 b0 /\ a = shift push a0 /\ b = shift push b0).
    { intros e a b (i & j & Hs & Hi & Hj). cbn [translate m_verts] in Hi, Hj. rewrite nth_error_map in Hi, Hj.
      destruct (nth_error (m_verts tetR) (N.to_nat i)) as [a0|] eqn:Ea; [|discriminate]. destruct (nth_error (m_verts tetR) (N.to_nat j)) as [b0|] eqn:Eb; [|discriminate].
      exists a0, b0. splits; [exists i, j; auto|injection Hi; auto|injection Hj; auto]. }
    split.
    + intros e a b H E. destruct (EP e a b H) as (a0 & b0 & H0 & -> & ->). destruct (edge_points_length _ _ _ _ G H0) as [La Lb].
      apply (M1 e a0 b0 H0). change (m_dim tetR) with 3%nat in La, Lb.
      destruct a0 as [|x0 [|x1 [|x2 [|]]]]; try discriminate La. destruct b0 as [|y0 [|y1 [|y2 [|]]]]; try discriminate Lb.
      unfold push in E. simpl in E. injection E as E0 E1 E2. assert (x0 = y0) by lra. assert (x1 = y1) by lra. assert (x2 = y2) by lra. congruence.
    + intros f face e0 es a b c Hf Hs H Hc. destruct (EP e0 a b H) as (a0 & b0 & H0 & -> & ->). rewrite nth_error_map in Hc.
      destruct (nth_error tetFC (N.to_nat f)) as [c0|] eqn:Ec; [|discriminate]. cbn [option_map] in Hc. assert (c = shift push c0) by congruence. subst c.
      destruct (edge_points_length _ _ _ _ G H0) as [La Lb].
      assert (Lc : length c0 = 3%nat) by (apply nth_error_In in Ec; simpl in Ec; repeat destruct Ec as [<-|Ec]; try reflexivity; destruct Ec).
      rewrite tri_shift by (assumption || reflexivity). eapply M2; eassumption.
Qed.

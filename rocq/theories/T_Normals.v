(** Theorems about face normals: C44. Exact real arithmetic ([numR]). *)
From Coq Require Import Reals Lra.
From Verif Require Import P_Base M_Conn M_Index M_Mesh M_Apply S_Mesh P_Apply M_Vec S_Vec P_Vec M_Geom S_Geom P_Geom P_Centers P_Tri P_Normals Ex_Mesh Ex_Geom.
Local Open Scope R_scope.

(** C44. Planar meshes: computeFaceNormals succeeds; the normal of a non-degenerate edge from a to b is a unit
    vector orthogonal to the edge, turned to the right of the direction a -> b: for any point p (a cell
    centre for example) it points away from p exactly when p, a, b turn left. *)
Theorem C44_normals2 : forall m, geo_mesh m -> m_dim m = 2%nat ->
  exists ns, computeNormals2 (K := numR) m = Ok ns /\ length ns = length (m_faces m) /\
  forall e a b n, edge_points m e a b -> nth_error ns (N.to_nat e) = Some n -> a <> b ->
    length n = 2%nat /\ sprod n n = 1 /\ sprod n a = sprod n b /\
    forall p, length p = 2%nat ->
      (sprod n a - sprod n p) * dist a b = area2 p a b /\
      (sprod n p < sprod n a <-> 0 < area2 p a b).
Proof.
  intros m G D. unfold computeNormals2.
  destruct (table_ok (fun e => ab <- edge_pts (K := numR) m e ;; Ok (normal2 (K := numR) (fst ab) (snd ab)))
     (fun e n => forall a b, edge_points m e a b -> n = normal2 (K := numR) a b) (n_elems m 1)) as (ns & E & L & H & _).
  { intros e He. destruct (edge_points_total m e G He) as (a & b & Hab).
    exists (normal2 (K := numR) a b). split; [apply ends_edge in Hab; nr; rewrite Hab; reflexivity|].
    intros a' b' Hab'. destruct (edge_points_det _ _ _ _ _ _ Hab Hab') as [-> ->]. reflexivity. }
  exists ns. split; [exact E|]. split; [pose proof (n_elems_face m ltac:(lia)) as F; rewrite D in F; rewrite L; exact F|].
  intros e a b n Hab Hn Hne. destruct (edge_points_length _ _ _ _ G Hab) as [La Lb]. rewrite D in La, Lb.
  rewrite (H e n Hn a b Hab). destruct (normal2_spec a b La Lb Hne) as (H1 & H2 & H3 & H4).
  splits; try assumption. intros p Lp. pose proof (H4 p Lp) as Hp. split; [exact Hp|].
  pose proof (dist_pos a b ltac:(congruence) Hne) as Hd. rewrite <- Hp. split; intros Hlt.
  - apply Rmult_lt_0_compat; lra.
  - destruct (Rle_or_lt (sprod (normal2 (K := numR) a b) a) (sprod (normal2 (K := numR) a b) p)) as [Hle|]; [|assumption].
    exfalso. assert ((sprod (normal2 (K := numR) a b) a - sprod (normal2 (K := numR) a b) p) * dist a b <= 0 * dist a b)
      by (apply Rmult_le_compat_r; lra). lra.
Qed.
Print Assumptions C44_normals2.

(** C44. In two dimensions the direction does not depend on which cell is left and which is right: meshes with
    the same vertices and the same end points of edges have the same normals, whatever their cells. *)
Theorem C44_normals2_ignore_cells : forall m m', m_dim m = 2%nat -> m_dim m' = 2%nat ->
  m_verts m = m_verts m' -> map f_subs (m_faces m) = map f_subs (m_faces m') ->
  computeNormals2 (K := numR) m = computeNormals2 (K := numR) m'.
Proof.
  intros m m' D D' Hv Hs. assert (L : length (m_faces m) = length (m_faces m')).
  { rewrite <- (map_length f_subs (m_faces m)), Hs, map_length. reflexivity. }
  assert (E : forall e, subs m 1 e = subs m' 1 e).
  { intros e. unfold subs. nr. rewrite D, D'. cbn [Nat.sub Nat.eqb].
    assert (Q : forall fs, (f <- vat fs e ;; Ok (f_subs f)) = vat (map f_subs fs) e).
    { intros fs. unfold vat. rewrite map_length, nth_error_map. destruct (e <? N.of_nat (length fs))%N; [|reflexivity].
      destruct (nth_error fs (N.to_nat e)); reflexivity. }
    rewrite !Q, Hs. reflexivity. }
  unfold computeNormals2. nr. replace (n_elems m 1) with (n_elems m' 1).
  - apply mapM_ext. intros e _. unfold edge_pts, ends. nr. rewrite E, Hv. reflexivity.
  - pose proof (n_elems_face m ltac:(lia)) as F1. pose proof (n_elems_face m' ltac:(lia)) as F2.
    nr. rewrite D in F1. rewrite D' in F2. cbn [Nat.sub] in F1, F2. rewrite F1, F2, L. reflexivity.
Qed.
Print Assumptions C44_normals2_ignore_cells.

(** C44. Spatial meshes, default method. [cc], [fc]: centres of cells and faces; every face has a left cell or,
    if that is missing (invalid or boundary index), a right one. The normal of a face (first edge from a to
    b, centre c) that does not contain the cell centre x is a unit vector orthogonal to a, b, c and to
    every point coplanar with them; it points away from the left cell, or towards the right one. *)
Theorem C44_normals3 : forall m cc fc, geo_mesh m -> no_empty m -> m_dim m = 3%nat ->
  (forall p, In p cc -> length p = 3%nat) -> (forall p, In p fc -> length p = 3%nat) -> length fc = length (m_faces m) ->
  (forall face, In face (m_faces m) -> exists x l, side_center cc face x l) ->
  exists ns, computeNormals3 (K := numR) m cc fc = Ok ns /\ length ns = length (m_faces m) /\
  forall f face x (l : bool) e0 es a b c n, nth_error (m_faces m) (N.to_nat f) = Some face -> side_center cc face x l ->
    f_subs face = e0 :: es -> edge_points m e0 a b -> nth_error fc (N.to_nat f) = Some c ->
    vol6 x a b c <> 0 -> nth_error ns (N.to_nat f) = Some n ->
    length n = 3%nat /\ sprod n n = 1 /\ sprod n a = sprod n c /\ sprod n b = sprod n c /\
    (if l then sprod n x < sprod n c else sprod n c < sprod n x) /\
    (forall p, length p = 3%nat -> coplanar [a; b; c; p] -> sprod n p = sprod n c).
Proof.
  intros m cc fc G HN D Hcc Hfc Lfc Hside. unfold computeNormals3.
  destruct (table_ok (normal3 (K := numR) m cc fc)
    (fun f n => forall face x (l : bool) e0 es a b c, nth_error (m_faces m) (N.to_nat f) = Some face -> side_center cc face x l ->
    f_subs face = e0 :: es -> edge_points m e0 a b -> nth_error fc (N.to_nat f) = Some c ->
    vol6 x a b c <> 0 -> exists e, outward e c a b x /\ n = vscale (K := numR) e (if l then 1 else -1)) (length (m_faces m)))
    as (ns & E & L & H & _).
  { intros f Hf. destruct (vat_lt (m_faces m) f Hf) as [face Hface]. apply vat_ok in Hface.
    destruct (Hside face (nth_error_In _ _ Hface)) as (x & l & Hs).
    assert (Hne : exists e0 es, f_subs face = e0 :: es).
    { destruct (f_subs face) as [|e0 es] eqn:Ef; [|eauto]. exfalso. apply (HN 2%nat f []); [lia| |reflexivity].
      unfold subs. rewrite D. simpl. apply vat_ok in Hface. rewrite Hface. simpl. rewrite Ef. reflexivity. }
    destruct Hne as (e0 & es & Hes).
    destruct (normal3_ok m cc fc f face x l e0 es G D Hcc Hfc Lfc Hface Hs Hes) as (n & En & Hn).
    exists n. split; [exact En|]. intros face' x' l' e0' es' a b c Hf' Hs' He' Hab Hc HV.
    assert (face' = face) by congruence. subst face'. assert (e0' = e0) by congruence. subst e0'.
    destruct (side_center_cell _ _ _ _ Hs) as (i & S1 & V1). destruct (side_center_cell _ _ _ _ Hs') as (i' & S2 & V2).
    assert (l' = l) by congruence. subst l'. assert (i' = i) by congruence. subst i'.
    assert (x' = x) by (assert (Q : Ok x' = Ok x) by congruence; injection Q; auto). subst x'. apply Hn; assumption. }
  exists ns. split; [exact E|]. split; [exact L|].
  intros f face x l e0 es a b c n Hf Hs He Hab Hc HV Hn.
  destruct (H f n Hn face x l e0 es a b c Hf Hs He Hab Hc HV) as (e & HO & ->).
  destruct (edge_points_length _ _ _ _ G Hab) as [La Lb]. rewrite D in La, Lb.
  assert (Lc : length c = 3%nat) by (apply Hfc; eapply nth_error_In; eassumption).
  assert (Lx : length x = 3%nat).
  { destruct (side_center_cell _ _ _ _ Hs) as (i & _ & V1). apply Hcc. apply vat_ok in V1. eapply nth_error_In; eassumption. }
  pose proof HO as (Le & Hu & Ha & Hb & Hx).
  assert (Sg : forall p, sprod (vscale (K := numR) e (if l then 1 else -1)) p = (if l then 1 else -1) * sprod e p) by (intros; apply sprod_vscale_l).
  splits.
  - rewrite vscale_length. exact Le.
  - rewrite Sg, sprod_comm, Sg, Hu. destruct l; lra.
  - rewrite !Sg, Ha. reflexivity.
  - rewrite !Sg, Hb. reflexivity.
  - rewrite !Sg. destruct l; lra.
  - intros p Lp (w & k & Lw & Hw & Hp). rewrite !Sg. f_equal.
    apply (outward_plane e c a b x w k p); auto; apply Hp; simpl; auto.
Qed.
Print Assumptions C44_normals3.

(** C44. METHOD_TESSELLATED: the result is the mean, weighted by their areas, of the unit normals of the triangles
    (face centre, edge), all pointing away from the cell used (with the sign of that cell). It is not
    normalised again. *)
Theorem C44_tessellated : forall m cc fc f face x (l : bool) c tris, geo_mesh m -> m_dim m = 3%nat ->
  (forall p, In p cc -> length p = 3%nat) -> (forall p, In p fc -> length p = 3%nat) ->
  nth_error (m_faces m) (N.to_nat f) = Some face -> side_center cc face x l -> nth_error fc (N.to_nat f) = Some c ->
  f_subs face <> [] ->
  Forall2 (fun e t => edge_points m e (snd (fst t)) (snd t) /\ fst (fst t) = c /\ vol6 x (snd (fst t)) (snd t) c <> 0) (f_subs face) tris ->
  0 < Rsum (map tri_S tris) /\
  exists n os, normal3_tess (K := numR) m cc fc f = Ok n /\ length n = 3%nat /\
    Forall2 (fun t o => outward o c (snd (fst t)) (snd t) x) tris os /\
    (forall d, (d < 3)%nat -> nth d n 0 * Rsum (map tri_S tris) =
      (if l then 1 else -1) * Rsum (map (fun to => tri_S (fst to) * nth d (snd to) 0) (combine tris os))) /\
    (* a planar face: the same normal as the default method *)
    (coplanar (c :: flat_map (fun t => [snd (fst t); snd t]) tris) -> normal3 (K := numR) m cc fc f = Ok n /\ sprod n n = 1).
Proof.
  intros m cc fc f face x l c tris G D Hcc Hfc Hf Hs Hc Hne HF.
  destruct (side_center_cell cc face x l Hs) as (i & Esd & Hx).
  assert (Lx : length x = 3%nat) by (apply Hcc; apply vat_ok in Hx; eapply nth_error_In; exact Hx).
  assert (Lc : length c = 3%nat) by (apply Hfc; eapply nth_error_In; exact Hc).
  assert (Hpos : forall t, In t tris -> 0 < tri_S t).
  { intros [[q a] b] Ht. apply In_nth_error in Ht as (j & Hj).
    assert (HH : exists e, edge_points m e a b /\ q = c /\ vol6 x a b c <> 0).
    { apply Forall2_nth in HF as [Lf HF]. destruct (nth_error (f_subs face) j) as [e|] eqn:Ej.
      - exists e. apply (HF j e _ Ej Hj).
      - apply nth_error_None in Ej. assert (j < length tris)%nat by (apply nth_error_Some; congruence). lia. }
    destruct HH as (e & Hab & -> & HV). destruct (edge_points_length _ _ _ _ G Hab) as [La Lb]. rewrite D in La, Lb.
    destruct (gs3_outward c a b x Lc La Lb Lx HV) as (e0 & e1 & e2 & n0 & n1 & n2 & _ & _ & EA & _ & _ & P).
    unfold tri_S. cbn [fst snd]. rewrite <- EA. lra. }
  assert (Hsum : 0 < Rsum (map tri_S tris)).
  { destruct tris as [|t tris]; [inversion HF; congruence|]. cbn [map Rsum].
    pose proof (Hpos t (or_introl eq_refl)). pose proof (Rsum_nonneg tri_S tris (fun y Hy => Rlt_le _ _ (Hpos y (or_intror Hy)))). lra. }
  split; [exact Hsum|].
  destruct (normal3_tess_ok m cc fc f face x l c tris G D Hcc Hfc Hf Hs Hc HF ltac:(lra)) as (n & os & En & Ln & HO & Hn).
  exists n, os. splits; try assumption.
  intros (w & k & Lw & Hw & Hp).
  destruct (f_subs face) as [|e0 es] eqn:Hes; [congruence|].
  destruct tris as [|[[q a] b] tris]; [inversion HF|]. pose proof HF as HF'. apply Forall2_cons_iff in HF' as [(Hab & Hq & HV) _].
  cbn [fst snd] in Hab, Hq, HV. subst q.
  assert (Lfc : exists n', normal3 (K := numR) m cc fc f = Ok n' /\ exists e, outward e c a b x /\ n' = vscale (K := numR) e (if l then 1 else -1)).
  { destruct (edge_points_length _ _ _ _ G Hab) as [La Lb]. rewrite D in La, Lb.
    destruct (gs3_outward c a b x Lc La Lb Lx HV) as (g0 & g1 & g2 & n0 & n1 & n2 & Eg & Og & _).
    exists (vscale (K := numR) g2 (if l then 1 else -1)). split; [|exists g2; split; [assumption|reflexivity]].
    unfold normal3. pose proof (proj2 (vat_ok (m_faces m) f face) Hf) as Hf'. nr. rewrite Hf'. cbn [bind]. rewrite Esd.
    nr. rewrite Hx. cbn [bind]. rewrite Hes. change (vidx (e0 :: es) 0) with (if (0 <? N.of_nat (S (length es)))%N then Ok e0 else UB).
    destruct (N.ltb_spec 0 (N.of_nat (S (length es)))); [|lia]. cbn [bind].
    pose proof (proj1 (ends_edge _ _ _ _) Hab) as Ee. nr. rewrite Ee. cbn [bind].
    pose proof (proj2 (vidx_ok fc f c) Hc) as Hc'. nr. rewrite Hc'. cbn [bind fst snd]. nr. rewrite Eg. cbn [bind fst].
    change (vidx [g0; g1; g2] 2) with (Ok g2). cbn [bind]. rewrite scale_sign. reflexivity. }
  destruct Lfc as (n' & En' & e & He & ->). rewrite En'.
  assert (Hall : forall o, In o os -> o = e).
  { intros o Ho. apply In_nth_error in Ho as (j & Hj). apply Forall2_nth in HO as [LO HO]. apply Forall2_nth in HF as [LF HF].
    assert (Hjt : (j < length os)%nat) by (apply nth_error_Some; congruence).
    destruct (nth_error ((c, a, b) :: tris) j) as [t|] eqn:Ej; [|apply nth_error_None in Ej; lia].
    destruct (nth_error (e0 :: es) j) as [ee|] eqn:Eee; [|apply nth_error_None in Eee; lia].
    specialize (HO j t o Ej Hj). destruct (HF j ee t Eee Ej) as (Hab' & Hq' & HV').
    destruct (edge_points_length _ _ _ _ G Hab) as [La Lb]. destruct (edge_points_length _ _ _ _ G Hab') as [La' Lb'].
    rewrite D in La, Lb, La', Lb'.
    assert (Hin : In (snd (fst t)) (c :: flat_map (fun t => [snd (fst t); snd t]) ((c, a, b) :: tris)) /\
                  In (snd t) (c :: flat_map (fun t => [snd (fst t); snd t]) ((c, a, b) :: tris))).
    { apply nth_error_In in Ej. split; right; apply in_flat_map; exists t; (split; [exact Ej|]); simpl; auto. }
    destruct Hin as [Hi1 Hi2].
    symmetry. apply (outward_unique e o c a b (snd (fst t)) (snd t) x w k); auto; apply Hp; simpl; auto. }
  assert (LO : length ((c, a, b) :: tris) = length os) by (eapply Forall2_length'; exact HO).
  assert (Eq : n = vscale (K := numR) e (if l then 1 else -1)).
  { pose proof He as (Le & _). apply nth_ext_R; [rewrite vscale_length; nr; lia|]. intros d Hd'.
    assert (Hd : (d < 3)%nat) by (nr; lia). specialize (Hn d Hd). rewrite (weighted_const _ os e d LO Hall) in Hn. rewrite vscale_nth.
    apply (Rmult_eq_reg_r (Rsum (map tri_S ((c, a, b) :: tris)))); [|lra]. etransitivity; [exact Hn|]. nr. ring. }
  split; [rewrite Eq; reflexivity|]. rewrite Eq. pose proof He as (_ & Hu & _).
  rewrite sprod_vscale_l, sprod_comm, sprod_vscale_l, Hu. destruct l; lra.
Qed.
Print Assumptions C44_tessellated.

(** Non-vacuity. *)
Definition cubeCC : list point := [[/2; /2; /2]].
Definition cubeFC : list point := [[/2; /2; 0]; [/2; 0; /2]; [0; /2; /2]; [/2; 1; /2]; [1; /2; /2]; [/2; /2; 1]].
Lemma cubeFC_len : (forall p, In p cubeCC -> length p = 3%nat) /\ (forall p, In p cubeFC -> length p = 3%nat).
Proof. split; intros p H; simpl in H; repeat destruct H as [<-|H]; try reflexivity; destruct H. Qed.
Lemma cube_side : forall face, In face (m_faces cubeR) -> side_center cubeCC face [/2; /2; /2] true.
Proof.
  assert (Q : forallb (fun f => (cellLeft (bc (f_conn f)) =? 0)%N) (m_faces cubeR) = true) by (vm_compute; reflexivity).
  intros face H. rewrite forallb_forall in Q. specialize (Q face H). apply N.eqb_eq in Q.
  unfold side_center. rewrite Q. split; reflexivity.
Qed.
Example C44_instance2 : exists ns n, computeNormals2 (K := numR) trianglesR = Ok ns /\ nth_error ns 1 = Some n /\
  sprod n n = 1 /\ 0 < sprod n [1; 1] - sprod n [0; 0].
Proof.
  destruct trianglesR_geo as [G _]. destruct (C44_normals2 trianglesR G eq_refl) as (ns & E & L & H).
  destruct (nth_error ns 1) as [n|] eqn:En; [|apply nth_error_None in En; rewrite L in En; simpl in En; lia].
  exists ns, n. split; [exact E|]. split; [exact En|].
  assert (Hab : edge_points trianglesR 1 [1; 0] [0; 1]) by (exists 1%N, 2%N; splits; reflexivity).
  assert (Hne : [1; 0] <> [0; 1]) by (intros Q; injection Q; lra).
  destruct (H 1%N _ _ n Hab En Hne) as (_ & H1 & H2 & H3). split; [exact H1|].
  pose proof (proj2 (proj2 (H3 [0;0] eq_refl))) as P0. pose proof (H3 [1;1] eq_refl) as P1.
  assert (A0 : sprod n [0;0] < sprod n [1;0]) by (apply P0; unfold area2, det2, px, py; simpl; lra).
  assert (A1 : ~ sprod n [1;1] < sprod n [1;0]).
  { intros Q. apply (proj2 P1) in Q. revert Q. unfold area2, det2, px, py; simpl. intros; lra. }
  assert (A2 : sprod n [1;1] - sprod n [1;0] >= 0) by lra. nr. lra.
Qed.
Example C44_instance3 : exists ns n, computeNormals3 (K := numR) cubeR cubeCC cubeFC = Ok ns /\ nth_error ns 5 = Some n /\ n = [0; 0; 1].
Proof.
  destruct cubeR_geo as [G HN]. destruct cubeFC_len as [L1 L2].
  destruct (C44_normals3 cubeR cubeCC cubeFC G HN eq_refl L1 L2 eq_refl) as (ns & E & L & H).
  { intros f Hf. exists [/2; /2; /2], true. apply cube_side. assumption. }
  destruct (nth_error ns 5) as [n|] eqn:En; [|apply nth_error_None in En; rewrite L in En; simpl in En; lia].
  exists ns, n. split; [exact E|]. split; [exact En|].
  assert (Hf : exists face, nth_error (m_faces cubeR) (N.to_nat 5) = Some face /\ f_subs face = [8;9;10;11]%N) by (eexists; split; reflexivity).
  destruct Hf as (face & Hf & Hs).
  assert (Hab : exists a b, edge_points cubeR 8 a b /\ In (a, b) [([0;0;1],[1;0;1]); ([1;0;1],[0;0;1])]).
  { eexists _, _. split; [eexists _, _; splits; reflexivity|]. simpl. auto. }
  destruct Hab as (a & b & Hab & Hin).
  assert (HV : vol6 [/2;/2;/2] a b [/2; /2; 1] <> 0).
  { simpl in Hin. destruct Hin as [Q|[Q|[]]]; injection Q as <- <-; unfold vol6, det3, px, py, pz; simpl; lra. }
  destruct (H 5%N face _ true _ _ a b [/2; /2; 1] n Hf (cube_side face (nth_error_In _ _ Hf)) Hs Hab eq_refl HV En) as (Ln & H1 & H2 & H3 & H4 & _).
  destruct n as [|x [|y [|z [|]]]]; try discriminate.
  simpl in Hin. destruct Hin as [Q|[Q|[]]]; injection Q as <- <-; simpl in H1, H2, H3, H4.
  - assert (x = 0) by lra. assert (y = 0) by lra. subst x y.
    assert (z = 1) by nra. subst z. reflexivity.
  - assert (x = 0) by lra. assert (y = 0) by lra. subst x y.
    assert (z = 1) by nra. subst z. reflexivity.
Qed.
Example C44_tess_instance : exists face tris, nth_error (m_faces cubeR) (N.to_nat 5) = Some face /\ f_subs face <> [] /\ side_center cubeCC face [/2; /2; /2] true /\
  Forall2 (fun e t => edge_points cubeR e (snd (fst t)) (snd t) /\ fst (fst t) = [/2; /2; 1] /\ vol6 [/2;/2;/2] (snd (fst t)) (snd t) [/2; /2; 1] <> 0) (f_subs face) tris /\
  coplanar ([/2; /2; 1] :: flat_map (fun t => [snd (fst t); snd t]) tris).
Proof.
  assert (Hf : exists face, nth_error (m_faces cubeR) (N.to_nat 5) = Some face /\ f_subs face = [8;9;10;11]%N) by (eexists; split; reflexivity).
  destruct Hf as (face & Hf & Hs). exists face. rewrite Hs.
  set (c := [/2; /2; 1]). exists [(c, [0;0;1], [1;0;1]); (c, [1;0;1], [1;1;1]); (c, [0;1;1], [1;1;1]); (c, [0;0;1], [0;1;1])].
  split; [exact Hf|]. split; [discriminate|].
  split; [apply cube_side; eapply nth_error_In; exact Hf|]. split.
  - repeat (apply Forall2_cons_iff; split); [..|constructor];
      (unfold c; split; [eexists _, _; cbn [fst snd]; splits; [reflexivity|reflexivity|reflexivity]|split; [reflexivity|unfold vol6, det3, px, py, pz; simpl; lra]]).
  - exists [0; 0; 1], 1. split; [reflexivity|]. split; [simpl; lra|]. intros p Hp. unfold c in Hp. simpl in Hp.
    repeat destruct Hp as [<-|Hp]; try (simpl; lra).
Qed.

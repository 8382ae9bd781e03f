(** C78, second part: files of convex polyhedra, from the file (its tokens, its characters) to the volumes. Exact real arithmetic. *)
From Coq Require Import Reals Lra Permutation List.
Import ListNotations.
From Verif Require Import P_Base M_Conn S_Conn P_Conn M_Index M_Mesh M_Apply S_Mesh P_Apply M_Vec S_Vec P_Vec M_Geom S_Geom P_Geom
  S_Polygon P_Polygon S_Flux P_Flux T_Flux S_Convex P_Convex M_Object T_Object T_Convex3 M_FPMA S_FPMA P_Poly P_FPMA P_FPMAWrite P_RoundTrip T_FPMA P_Bnd P_VTK3
  M_VTK S_VTK T_VTK3 Ex_Mesh Ex_Geom T_ConvexVTK S_ConvexFile P_ConvexFile.
Local Open Scope nat_scope.
Local Open Scope list_scope.

Lemma nth_error_rev' {A} (l : list A) j : j < length l -> nth_error (rev l) j = nth_error l (length l - 1 - j).
Proof.
  intros H. destruct l as [|d r]; [cbn in H; lia|]. set (l := d :: r) in *.
  rewrite (nth_error_nth' (rev l) d) by (rewrite rev_length; exact H). rewrite (nth_error_nth' l d) by lia.
  f_equal. rewrite rev_nth by exact H. f_equal. lia.
Qed.
Lemma side_rev vs i a b : side vs i a b -> exists j, side (rev vs) j b a.
Proof.
  intros [Ha Hb]. assert (Hi : i < length vs) by (apply nth_error_Some; congruence).
  set (n := length vs) in *. assert (Hm : S i mod n < n) by (apply Nat.mod_upper_bound; lia).
  exists (n - 1 - S i mod n). split.
  - rewrite nth_error_rev' by lia. fold n. rewrite <- Hb. f_equal. lia.
  - rewrite rev_length. fold n. destruct (Nat.eq_dec (S i) n) as [E|E].
    + rewrite E, Nat.mod_same by lia. replace (S (n - 1 - 0)) with n by lia. rewrite Nat.mod_same by lia.
      rewrite nth_error_rev' by lia. fold n. rewrite <- Ha. f_equal. lia.
    + rewrite (Nat.mod_small (S i)) by lia. rewrite Nat.mod_small by lia. rewrite nth_error_rev' by lia. fold n. rewrite <- Ha. f_equal. lia.
Qed.
Lemma turned_same {A} b (p : list A) : p = turned b (turned b p).
Proof. destruct b; cbn; [reflexivity|symmetry; apply rev_involutive]. Qed.
Lemma turned_polygon b vs : same_polygon vs (turned b vs).
Proof. exists [], vs. split; [reflexivity|]. rewrite app_nil_r. destruct b; auto. Qed.
Lemma turned_length {A} b (p : list A) : length (turned b p) = length p.
Proof. destruct b; [reflexivity|apply rev_length]. Qed.

(** C78. An FPMA file of convex polyhedra loads into a mesh that satisfies the hypotheses of C78_convex3, with the cells of the file. *)
Theorem C78_fpma : forall C (g : C * C * C -> point) reserve (F : fpma_file C) out rest,
  (forall p, length (g p) = 3) -> convex_file3 g F out -> (reserve = 0 \/ forall p, In p (ff_polys F) -> length p <= reserve) ->
  exists m, loadFPMA reserve (layout F ++ rest) (emptyMesh 3) = Ok m /\ length (m_cells m) = length (ff_cells F) /\
    (forall c fs, nth_error (ff_cells F) (N.to_nat c) = Some fs -> ring (with_points g m) c fs) /\
    convex_mesh3 (with_points g m) (fun c f => map (point_of g (ff_verts F)) (face_seen F out c f)).
Proof.
  intros C g reserve F out rest L3 [FO SZ FP FU CX OP] HR.
  destruct (C73_fpma C reserve F rest FO FP HR) as (m & E & W & SM).
  destruct (load_spec reserve F rest FO HR) as (m' & edges & E' & D & Ev & Em & _ & F2 & Un & Cov & Lc & Ri & LR).
  assert (m' = m) by congruence. subst m'. exists m. split; [exact E|]. split; [exact Lc|].
  split; [intros c fs Hc; apply wp_ring; exact (Ri c fs Hc)|].
  pose proof (Forall2_length' _ _ _ F2) as LF.
  assert (VP : forall v, vpoint g m v = point_of g (ff_verts F) v) by (intros v; unfold vpoint, point_of; now rewrite Ev).
  assert (EQ : forall c f, map (vpoint g m) (face_seen F out c f) = map (point_of g (ff_verts F)) (face_seen F out c f)).
  { intros c f. apply map_ext. exact VP. }
  assert (X : convex_mesh3 (with_points g m) (fun c f => map (vpoint g m) (face_seen F out c f))).
  { apply (convex_listed g m edges (ff_cells F) (face_seen F out) D Em L3 W Lc SZ Ri LR).
    - intros i Hi. destruct (FU (N.of_nat i)) as (fs & A & B); [lia|]. eauto.
    - exact Cov.
    - intros c es f face Hes Hin Hf.
      destruct (nth_error (ff_polys F) (N.to_nat f)) as [p|] eqn:Ep.
      2:{ apply nth_error_None in Ep. assert (N.to_nat f < length (m_faces m)) by (apply nth_error_Some; congruence). lia. }
      unfold face_seen. rewrite (nth_error_nth _ _ _ Ep). apply (bounds_same _ _ p); [apply turned_polygon|].
      split; [apply FP; eapply nth_error_In; exact Ep|]. exists (f_subs face). split; [reflexivity|]. split.
      + assert (Hs : subs m 2 f = Ok (f_subs face)) by (unfold subs; rewrite D; cbn [Nat.sub Nat.eqb]; rewrite (proj2 (vat_ok _ _ _) Hf); reflexivity).
        destruct W as [_ _ W3 _]. apply (W3 2 f); [rewrite D; lia|exact Hs].
      + exact (proj2 (proj1 (Forall2_nth _ _ _) F2) _ _ _ Hf Ep).
    - intros c es Hes. rewrite (map_ext _ _ (EQ c)). exact (CX c es Hes).
    - intros c c' f Hc Hc' Hne i a b Hs. apply in_listing in Hc as (fs & Hfs & Hin). apply in_listing in Hc' as (fs' & Hfs' & Hin').
      unfold face_seen in *. rewrite (OP f c c' fs fs' Hfs Hfs' Hin Hin' Hne) in Hs.
      destruct (out c' f); cbn [negb turned] in *.
      + apply side_rev in Hs. rewrite rev_involutive in Hs. exact Hs.
      + apply side_rev in Hs. exact Hs. }
  destruct X as [X1 X2 X3 X4 X5 X6 X7 X8 X9]. constructor; auto.
  - intros i fs HR'. destruct (X7 i fs HR') as [A B]. split.
    + rewrite <- (map_ext _ _ (EQ i)). exact A.
    + intros f face Hin Hf. rewrite <- EQ. exact (B f face Hin Hf).
  - intros f face Hf l r Hl Hr. rewrite <- !EQ. exact (X9 f face Hf Hl Hr).
Qed.
Print Assumptions C78_fpma.

(** Centres, volumes and normals computed for such a mesh; [ess] lists the faces of the cells. *)
Lemma convex_results (m : Mesh point) poly (ess : list (list N)) tess tess' tess'' fc cc bcc :
  convex_mesh3 m poly -> length (m_cells m) = length ess -> (forall c es, nth_error ess (N.to_nat c) = Some es -> ring m c es) ->
  exists u ls Fs Vs ns, initializeCenters (K := numR) tess (mkU m fc cc bcc) = Ok u /\ u_mesh u = m /\
    elementMeasures (K := numR) tess' u = Ok [ls; Fs; Vs] /\ faceNormals (K := numR) tess'' u = Ok ns /\ length Vs = length ess /\
    forall c es, nth_error ess (N.to_nat c) = Some es ->
      nth_error Vs (N.to_nat c) = Some (poly_volume (map (poly c) es)) /\ (0 < poly_volume (map (poly c) es))%R /\
      (exists x, nth_error (u_cc u) (N.to_nat c) = Some x /\ rel_inside (concat (map (poly c) es)) x) /\
      forall f, In f es -> exists n, nth_error ns (N.to_nat f) = Some n /\ length n = 3 /\ sprod n n = 1%R /\
        exists s, (s = 1 \/ s = -1)%R /\ s = side_sign m f c /\
          forall v, In v (poly c f) -> forall w, In w (concat (map (poly c) es)) -> (s * sprod n w <= s * sprod n v)%R.
Proof.
  intros X LC RI.
  destruct (C78_convex3 (mkU m fc cc bcc) poly tess tess' tess'' X)
    as (u & ls & Fs & Vs & ns & E & EU & EM & EN & _ & _ & _ & _ & LV & _ & HV & HF & _).
  cbn [u_mesh] in *. exists u, ls, Fs, Vs, ns. splits; auto. { etransitivity; [exact LV|exact LC]. }
  intros c es Hes. pose proof (RI c es Hes) as HR. destruct (HV c es HR) as (x & Hx & Hin & Q & P).
  splits; [exact Q|exact P|exists x; auto|]. intros f Hf.
  destruct (HF c es f HR Hf) as (cf & n & A & _ & Hn & _ & _ & _ & Hs & Ln & Un & _ & _ & Ho).
  exists n. splits; [exact Hn|exact Ln|exact Un|]. exists (side_sign m f c). splits; [exact Hs|reflexivity|].
  intros v Hv w Hw. apply in_concat in Hw as (p & Hp & Hw). apply in_map_iff in Hp as (k & <- & Hk). exact (Ho v Hv k w Hk Hw).
Qed.

(** C78. For such a file: whatever was stored before, initializing the centres and computing the measures gives the volumes of the
    polyhedra of the file, in file order, all positive; the centres are inside, the normals have length one and each is orthogonal to its
    face and points out of its left cell (into the right one). *)
Theorem C78_fpma_volumes : forall C (g : C * C * C -> point) reserve (F : fpma_file C) out rest tess tess' tess'' fc cc bcc,
  (forall p, length (g p) = 3) -> convex_file3 g F out -> (reserve = 0 \/ forall p, In p (ff_polys F) -> length p <= reserve) ->
  exists m u ls Fs Vs ns, loadFPMA reserve (layout F ++ rest) (emptyMesh 3) = Ok m /\
    initializeCenters (K := numR) tess (mkU (with_points g m) fc cc bcc) = Ok u /\
    elementMeasures (K := numR) tess' u = Ok [ls; Fs; Vs] /\ faceNormals (K := numR) tess'' u = Ok ns /\
    length Vs = length (ff_cells F) /\
    forall c fs, nth_error (ff_cells F) (N.to_nat c) = Some fs ->
      nth_error Vs (N.to_nat c) = Some (poly_volume (cell_solid g F out c fs)) /\ (0 < poly_volume (cell_solid g F out c fs))%R /\
      (exists x, nth_error (u_cc u) (N.to_nat c) = Some x /\ rel_inside (concat (cell_solid g F out c fs)) x) /\
      forall f, In f fs -> exists n, nth_error ns (N.to_nat f) = Some n /\ length n = 3 /\ sprod n n = 1%R /\
        exists s, (s = 1 \/ s = -1)%R /\ s = side_sign m f c /\
          forall v w, In v (map (point_of g (ff_verts F)) (face_seen F out c f)) -> In w (concat (cell_solid g F out c fs)) ->
            (s * sprod n w <= s * sprod n v)%R.
Proof.
  intros C g reserve F out rest tess tess' tess'' fc cc bcc L3 CF HR.
  destruct (C78_fpma C g reserve F out rest L3 CF HR) as (m & E & Lc & Ri & X).
  destruct (convex_results (with_points g m) _ (ff_cells F) tess tess' tess'' fc cc bcc X Lc Ri) as (u & ls & Fs & Vs & ns & E1 & _ & E2 & E3 & LV & H).
  exists m, u, ls, Fs, Vs, ns. splits; auto. intros c fs Hc. destruct (H c fs Hc) as (A & B & Cn & Nn). splits; [exact A|exact B|exact Cn|].
  intros f Hf. destruct (Nn f Hf) as (n & N1 & N2 & N3 & s & S1 & S2 & S3). exists n. splits; auto. exists s. splits; auto.
Qed.
Print Assumptions C78_fpma_volumes.

(** * VTK files *)
Fixpoint posN (f : N) (l : list N) : nat := match l with [] => 0 | x :: r => if N.eqb f x then 0 else S (posN f r) end.
Lemma posN_nth l : NoDup l -> forall k f, nth_error l k = Some f -> posN f l = k.
Proof.
  induction 1 as [|x l Hx _ IH]; intros [|k] f Hk; cbn in Hk; try discriminate; cbn [posN].
  - injection Hk as ->. now rewrite N.eqb_refl.
  - destruct (N.eqb_spec f x) as [->|]; [exfalso; apply Hx; eapply nth_error_In; exact Hk|]. f_equal. now apply IH.
Qed.
Lemma map_posN {A} (d : A) l xs : NoDup l -> length l = length xs -> map (fun f => nth (posN f l) xs d) l = xs.
Proof.
  intros ND L. apply nth_error_ext. intros i. rewrite nth_error_map.
  destruct (nth_error l i) as [f|] eqn:E; cbn.
  - rewrite (posN_nth l ND i f E). symmetry. apply nth_error_nth'. rewrite <- L. apply nth_error_Some. congruence.
  - symmetry. apply nth_error_None. apply nth_error_None in E. lia.
Qed.
Lemma outer_length out vs : length (outer_faces out vs) = length (faces_of vs).
Proof. unfold outer_faces. rewrite map_length, combine_length, seq_length. lia. Qed.
Lemma outer_nth out vs k p : nth_error (faces_of vs) k = Some p -> nth_error (outer_faces out vs) k = Some (turned (out k) p).
Proof.
  intros H. unfold outer_faces. rewrite nth_error_map.
  assert (Q : forall (l : list (list N)) s j q, nth_error l j = Some q -> nth_error (combine (seq s (length l)) l) j = Some (s + j, q)).
  { clear. induction l as [|x l IH]; intros s [|j] q Hq; try discriminate.
    - injection Hq as ->. cbn. now rewrite Nat.add_0_r.
    - cbn in *. rewrite (IH (S s) j q Hq). f_equal. f_equal. lia. }
  now rewrite (Q _ 0 k p H).
Qed.

Lemma bounds_same_sides edges es p q : bounds edges es p -> bounds edges es q -> same_sides p q.
Proof.
  assert (H : forall p q, bounds edges es p -> bounds edges es q -> forall a b, has_side p a b -> has_side q a b).
  { clear p q. intros p q (Pp & e1 & P1 & _ & L1 & S1) (Pq & e2 & P2 & _ & L2 & S2).
    assert (G : forall i a b, side p i a b -> exists j, side q j a b \/ side q j b a).
    { intros i a b Hs. assert (Hi : i < length p) by (destruct Hs; apply nth_error_Some; congruence).
      destruct (nth_error e1 i) as [e|] eqn:Ee; [|apply nth_error_None in Ee; lia].
      pose proof (S1 i e a b Ee Hs) as J.
      assert (Hin : In e e2) by (rewrite <- P2, P1; eapply nth_error_In; exact Ee). apply In_nth_error in Hin as (j & Hj).
      assert (Hjl : j < length q) by (rewrite <- L2; apply nth_error_Some; congruence).
      destruct (side_at q j Hjl) as (x & y & Hxy). exists j. pose proof (S2 j e x y Hj Hxy) as J'.
      destruct J as [J|J], J' as [J'|J']; rewrite J in J'; injection J' as <- <-; auto. }
    unfold has_side. intros a b (i & [Hs|Hs]); destruct (G _ _ _ Hs) as (j & Hj); exists j; tauto. }
  intros Hp Hq a b. split; apply H; assumption.
Qed.

Theorem C78_vtk3 : forall C (g : C * C * C -> point) reserve (F : vtk_file C) out l1 l2 rest (m0 : Mesh (C * C * C)) old,
  (forall p, length (g p) = 3) -> convex_grid3 g F out ->
  (reserve = 0 \/ forall vs p, In vs (vf_cells F) -> In p (faces_of vs) -> length p <= reserve) ->
  one_line l1 -> one_line l2 -> m_dim m0 = 3 -> length (m_mid m0) = 1 ->
  exists m types ess poly, loadVTK3 reserve (vtk_header l1 l2 ++ vtk_body F ++ rest) m0 old = Ok (m, types) /\
    length (m_cells m) = length (vf_cells F) /\ length ess = length (vf_cells F) /\
    (forall c es, nth_error ess (N.to_nat c) = Some es -> ring (with_points g m) c es) /\
    (forall c es vs, nth_error ess (N.to_nat c) = Some es -> nth_error (vf_cells F) (N.to_nat c) = Some vs ->
       map (poly c) es = vtk_solid g F (out c) vs) /\
    convex_mesh3 (with_points g m) poly.
Proof.
  intros C g reserve F out l1 l2 rest m0 old L3 [G SZ RG CX OP] HR H1 H2 HD HM.
  destruct (C28_vtk3_wf F reserve l1 l2 rest m0 old G HR H1 H2 HD HM RG) as (m & types & E & W).
  destruct (C28_vtk3_read F reserve l1 l2 rest m0 old G HR H1 H2 HD HM)
    as (m' & types' & edges & ess & E' & D & M & V & Lc & S & Ri & U & U2 & CF & CE & LR).
  assert (m' = m) by congruence. subst m'. clear E' types'.
  pose proof (Forall2_length' _ _ _ S) as LE.
  set (ipoly := fun c f => nth (posN f (nth (N.to_nat c) ess [])) (outer_faces (out c) (nth (N.to_nat c) (vf_cells F) [])) []).
  assert (VP : forall v, vpoint g m v = point_of g (vf_pts F) v) by (intros v; unfold vpoint, point_of; now rewrite V).
  assert (CC : forall c es, nth_error ess (N.to_nat c) = Some es -> exists vs, nth_error (vf_cells F) (N.to_nat c) = Some vs /\
     NoDup es /\ length es = length (faces_of vs) /\ map (ipoly c) es = outer_faces (out c) vs /\
     forall f, In f es -> exists face p k, nth_error (m_faces m) (N.to_nat f) = Some face /\ nth_error (faces_of vs) k = Some p /\
       bounds edges (f_subs face) p /\ ipoly c f = turned (out c k) p /\ In (ipoly c f) (outer_faces (out c) vs)).
  { intros c es Hes. destruct (Forall2_nth_l _ _ _ _ _ S Hes) as (vs & Hvs & HF). exists vs. split; [exact Hvs|].
    pose proof (Forall2_length' _ _ _ HF) as LL.
    assert (ND : NoDup es). { destruct (Ri c es Hes) as (f0 & r & -> & _ & _ & ND). exact ND. }
    assert (Ei : forall f, ipoly c f = nth (posN f es) (outer_faces (out c) vs) []).
    { intros f. unfold ipoly. now rewrite (nth_error_nth _ _ _ Hes), (nth_error_nth _ _ _ Hvs). }
    splits; [exact ND|exact LL| |].
    - rewrite (map_ext _ _ Ei). apply map_posN; [exact ND|]. now rewrite outer_length.
    - intros f Hin. apply In_nth_error in Hin as (k & Hk). destruct (Forall2_nth_l _ _ _ _ _ HF Hk) as (p & Hp & face & Hf & B).
      pose proof (outer_nth (out c) vs k p Hp) as Ho.
      assert (Ek : ipoly c f = turned (out c k) p). { rewrite Ei, (posN_nth es ND k f Hk). apply nth_error_nth. exact Ho. }
      exists face, p, k. splits; auto. rewrite Ek. eapply nth_error_In. exact Ho. }
  assert (EQ : forall c f, map (vpoint g m) (ipoly c f) = map (point_of g (vf_pts F)) (ipoly c f)) by (intros c f; apply map_ext; exact VP).
  assert (SZ' : (N.of_nat (length ess) <= 2 ^ 63)%N) by (rewrite LE; exact SZ).
  exists m, types, ess, (fun c f => map (vpoint g m) (ipoly c f)).
  split; [exact E|]. split; [exact Lc|]. split; [exact LE|]. split; [intros c es Hes; apply wp_ring; exact (Ri c es Hes)|]. split.
  - intros c es vs Hes Hvs. destruct (CC c es Hes) as (vs' & Hvs' & _ & _ & Em & _). assert (vs' = vs) by congruence. subst vs'.
    unfold vtk_solid. rewrite <- Em, map_map. apply map_ext. intros f. apply EQ.
  - assert (LRi : forall i f, nth_error (m_faces m) i = Some f ->
       cellLeft (bc (f_conn f)) = nth 0 (listing ess (N.of_nat i)) INVALID /\ cellRight (bc (f_conn f)) = nth 1 (listing ess (N.of_nat i)) INVALID).
    { intros i f Hf. destruct (LR i f Hf) as (A & B & _). auto. }
    apply (convex_listed g m edges ess ipoly D M L3 W (eq_trans Lc (eq_sym LE)) SZ' Ri LRi CF CE).
    + intros c es f face Hes Hin Hf. destruct (CC c es Hes) as (vs & _ & _ & _ & _ & H). destruct (H f Hin) as (face' & p & k & Hf' & _ & B & -> & _).
      assert (face' = face) by congruence. subst face'. apply (bounds_same _ _ p); [apply turned_polygon|exact B].
    + intros c es Hes. destruct (CC c es Hes) as (vs & Hvs & _ & _ & Em & _). rewrite (map_ext _ _ (EQ c)), <- map_map, Em. exact (CX c vs Hvs).
    + intros c c' f Hc Hc' Hne. apply in_listing in Hc as (es & Hes & Hin). apply in_listing in Hc' as (es' & Hes' & Hin').
      destruct (CC c es Hes) as (vs & Hvs & _ & _ & _ & H). destruct (H f Hin) as (face & p & k & Hf & _ & B & Ep & Ip).
      destruct (CC c' es' Hes') as (vs' & Hvs' & _ & _ & _ & H'). destruct (H' f Hin') as (face' & p' & k' & Hf' & _ & B' & Ep' & Ip').
      assert (face' = face) by congruence. subst face'.
      apply (OP c c' vs vs' (ipoly c f) (ipoly c' f) Hvs Hvs' Hne Ip Ip').
      apply (bounds_same_sides edges (f_subs face)).
      * rewrite Ep. apply (bounds_same _ _ p); [apply turned_polygon|exact B].
      * rewrite Ep'. apply (bounds_same _ _ p'); [apply turned_polygon|exact B'].
Qed.
Print Assumptions C78_vtk3.

(** The same conclusion for VTK files. *)
Theorem C78_vtk3_volumes : forall C (g : C * C * C -> point) reserve (F : vtk_file C) out l1 l2 rest (m0 : Mesh (C * C * C)) old tess tess' fc cc bcc,
  (forall p, length (g p) = 3) -> convex_grid3 g F out ->
  (reserve = 0 \/ forall vs p, In vs (vf_cells F) -> In p (faces_of vs) -> length p <= reserve) ->
  one_line l1 -> one_line l2 -> m_dim m0 = 3 -> length (m_mid m0) = 1 ->
  exists m types u ls Fs Vs, loadVTK3 reserve (vtk_header l1 l2 ++ vtk_body F ++ rest) m0 old = Ok (m, types) /\
    initializeCenters (K := numR) tess (mkU (with_points g m) fc cc bcc) = Ok u /\
    elementMeasures (K := numR) tess' u = Ok [ls; Fs; Vs] /\ length Vs = length (vf_cells F) /\
    forall c vs, nth_error (vf_cells F) (N.to_nat c) = Some vs ->
      nth_error Vs (N.to_nat c) = Some (poly_volume (vtk_solid g F (out c) vs)) /\ (0 < poly_volume (vtk_solid g F (out c) vs))%R /\
      exists x, nth_error (u_cc u) (N.to_nat c) = Some x /\ rel_inside (concat (vtk_solid g F (out c) vs)) x.
Proof.
  intros C g reserve F out l1 l2 rest m0 old tess tess' fc cc bcc L3 CG HR H1 H2 HD HM.
  destruct (C78_vtk3 C g reserve F out l1 l2 rest m0 old L3 CG HR H1 H2 HD HM) as (m & types & ess & poly & E & Lc & LE & Ri & Hp & X).
  destruct (convex_results (with_points g m) poly ess tess tess' false fc cc bcc X (eq_trans Lc (eq_sym LE)) Ri) as (u & ls & Fs & Vs & ns & E1 & _ & E2 & _ & LV & H).
  exists m, types, u, ls, Fs, Vs. splits; auto; [congruence|]. intros c vs Hc.
  destruct (nth_error ess (N.to_nat c)) as [es|] eqn:Ees.
  2:{ apply nth_error_None in Ees. assert (N.to_nat c < length (vf_cells F)) by (apply nth_error_Some; congruence). lia. }
  destruct (H c es Ees) as (A & B & Cn & _). rewrite (Hp c es vs Ees Hc) in *. auto.
Qed.
Print Assumptions C78_vtk3_volumes.

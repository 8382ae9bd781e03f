(** C78, fourth part: files of convex polyhedra as characters. The decimal numbers of the file become the nearest numbers of the coordinate
    type; the arithmetic on them is that of the real numbers. *)
From Coq Require Import Reals Lra Permutation List QArith Qreals Ascii String.
From Verif Require Import P_Base M_Conn S_Conn P_Conn M_Index M_Mesh M_Apply S_Mesh P_Apply M_Vec S_Vec P_Vec M_Geom S_Geom P_Geom
  S_Polygon P_Polygon S_Flux P_Flux T_Flux S_Convex P_Convex M_Object T_Object T_Convex3 M_FPMA S_FPMA P_FPMA P_VTK3
  M_VTK S_VTK T_VTK3 Ex_Mesh Ex_Geom T_ConvexVTK S_ConvexFile P_ConvexFile T_ConvexFile T_Tets
  M_Text M_Print M_Stream P_Stream M_FileText P_FileText S_Layout P_Stream2 P_Layout T_FileText T_Layout.
Import ListNotations.
Local Open Scope nat_scope.
Local Open Scope list_scope.

(** The point of the space with three coordinates of the coordinate type. *)
Definition real_point {C} (K : fp C) (p : C * C * C) : point := [Q2R (val K (fst (fst p))); Q2R (val K (snd (fst p))); Q2R (val K (snd p))].

Theorem C78_fpma_text : forall C (K : fp C) reserve (F : fpma_file C) out ws s rest tess tess' tess'' fc cc bcc,
  convex_file3 (real_point K) F out -> (reserve = 0 \/ forall p, In p (ff_polys F) -> List.length p <= reserve) ->
  words ws s rest -> Forall2 (shows K) ws (layout F) ->
  exists m u ls Fs Vs ns, readFPMA K reserve s (emptyMesh 3) = Ok m /\
    initializeCenters (K := numR) tess (mkU (with_points (real_point K) m) fc cc bcc) = Ok u /\
    elementMeasures (K := numR) tess' u = Ok [ls; Fs; Vs] /\ faceNormals (K := numR) tess'' u = Ok ns /\
    List.length Vs = List.length (ff_cells F) /\
    forall c fs, nth_error (ff_cells F) (N.to_nat c) = Some fs ->
      nth_error Vs (N.to_nat c) = Some (poly_volume (cell_solid (real_point K) F out c fs)) /\ (0 < poly_volume (cell_solid (real_point K) F out c fs))%R /\
      (exists x, nth_error (u_cc u) (N.to_nat c) = Some x /\ rel_inside (List.concat (cell_solid (real_point K) F out c fs)) x) /\
      forall f, In f fs -> exists n, nth_error ns (N.to_nat f) = Some n /\ List.length n = 3 /\ sprod n n = 1%R /\
        exists sg, (sg = 1 \/ sg = -1)%R /\ sg = side_sign m f c /\
          forall v w, In v (map (point_of (real_point K) (ff_verts F)) (face_seen F out c f)) -> In w (List.concat (cell_solid (real_point K) F out c fs)) ->
            (sg * sprod n w <= sg * sprod n v)%R.
Proof.
  intros C K reserve F out ws s rest tess tess' tess'' fc cc bcc CF HR HW HS.
  destruct (C78_fpma_volumes C (real_point K) reserve F out [] tess tess' tess'' fc cc bcc (fun p => eq_refl) CF HR) as (m & u & ls & Fs & Vs & ns & E & H).
  rewrite app_nil_r in E. exists m, u, ls, Fs, Vs, ns. split; [|exact H]. exact (layout_FPMA K rest reserve (layout F) ws s (emptyMesh 3) m HW HS E).
Qed.
Print Assumptions C78_fpma_text.

Theorem C78_vtk3_text : forall C (K : fp C) reserve (F : vtk_file C) out s (m0 : Mesh (C * C * C)) old tess tess' fc cc bcc,
  convex_grid3 (real_point K) F out ->
  (reserve = 0 \/ forall vs p, In vs (vf_cells F) -> In p (faces_of vs) -> List.length p <= reserve) ->
  vtk_text K F s -> m_dim m0 = 3 -> List.length (m_mid m0) = 1 ->
  exists m types u ls Fs Vs, readVTK3 K reserve s m0 old = Ok (m, types) /\
    initializeCenters (K := numR) tess (mkU (with_points (real_point K) m) fc cc bcc) = Ok u /\
    elementMeasures (K := numR) tess' u = Ok [ls; Fs; Vs] /\ List.length Vs = List.length (vf_cells F) /\
    forall c vs, nth_error (vf_cells F) (N.to_nat c) = Some vs ->
      nth_error Vs (N.to_nat c) = Some (poly_volume (vtk_solid (real_point K) F (out c) vs)) /\ (0 < poly_volume (vtk_solid (real_point K) F (out c) vs))%R /\
      exists x, nth_error (u_cc u) (N.to_nat c) = Some x /\ rel_inside (List.concat (vtk_solid (real_point K) F (out c) vs)) x.
Proof.
  intros C K reserve F out s m0 old tess tess' fc cc bcc CG HR
    (l1 & l2 & wn & wp & wc & wr & wt & wk & e1 & e2 & rest & s1 & s2 & s3 & -> & A1 & A2 & A3 & A4 & B1 & B2 & B3 & B4 & B5 & B6 & B7 & B8 & B9 & B10 & B11) HD HM.
  destruct (C78_vtk3_volumes C (real_point K) reserve F out [] [] [] m0 old tess tess' fc cc bcc (fun p => eq_refl) CG HR (fun H => H) (fun H => H) HD HM)
    as (m & types & u & ls & Fs & Vs & E & H).
  rewrite app_nil_r in E. exists m, types, u, ls, Fs, Vs. split; [|exact H].
  exact (whole3 K F l1 l2 wn wp wc wr wt wk e1 e2 rest s1 s2 s3 (conj A1 A3) (conj A2 A4) B1 B2 B3 B4 B5 B6 B7 B8 B9 B10 B11 reserve [] [] m0 old m types (fun H => H) (fun H => H) E).
Qed.
Print Assumptions C78_vtk3_text.

(** A text that holds a grid of tetrahedra: the computed volumes are |det|/6. *)
Theorem C78_tets_text : forall C (K : fp C) reserve (F : vtk_file C) s (m0 : Mesh (C * C * C)) old tess tess' fc cc bcc,
  tet_grid (real_point K) F -> (reserve = 0 \/ 3 <= reserve) -> vtk_text K F s -> m_dim m0 = 3 -> List.length (m_mid m0) = 1 ->
  exists m types u ls Fs, readVTK3 K reserve s m0 old = Ok (m, types) /\
    initializeCenters (K := numR) tess (mkU (with_points (real_point K) m) fc cc bcc) = Ok u /\
    elementMeasures (K := numR) tess' u = Ok [ls; Fs; map (tet_volume (real_point K) F) (vf_cells F)] /\
    forall c vs, nth_error (vf_cells F) c = Some vs -> (0 < tet_volume (real_point K) F vs)%R /\
      exists x, nth_error (u_cc u) c = Some x /\ rel_inside (map (point_of (real_point K) (vf_pts F)) vs) x.
Proof.
  intros C K reserve F s m0 old tess tess' fc cc bcc T HR
    (l1 & l2 & wn & wp & wc & wr & wt & wk & e1 & e2 & rest & s1 & s2 & s3 & -> & A1 & A2 & A3 & A4 & B1 & B2 & B3 & B4 & B5 & B6 & B7 & B8 & B9 & B10 & B11) HD HM.
  destruct (C78_tets C (real_point K) reserve F [] [] [] m0 old tess tess' fc cc bcc (fun p => eq_refl) T HR (fun H => H) (fun H => H) HD HM)
    as (m & types & u & ls & Fs & E & H).
  rewrite app_nil_r in E. exists m, types, u, ls, Fs. split; [|exact H].
  exact (whole3 K F l1 l2 wn wp wc wr wt wk e1 e2 rest s1 s2 s3 (conj A1 A3) (conj A2 A4) B1 B2 B3 B4 B5 B6 B7 B8 B9 B10 B11 reserve [] [] m0 old m types (fun H => H) (fun H => H) E).
Qed.
Print Assumptions C78_tets_text.

(** * Instances *)
(** The tetrahedron of C85_instance, of volume 5/24: tabs, Windows line ends, numbers in several notations. *)
Definition tetraOut (c f : N) : bool := match f with 0%N => true | 1%N => true | 2%N => true | _ => false end.
Lemma Q2Rs : Q2R 0 = 0%R /\ Q2R 1 = 1%R /\ Q2R (1 # 4) = (1 / 4)%R /\ Q2R (-5 # 1) = (-5)%R /\ Q2R 2 = 2%R.
Proof. unfold Q2R. cbn [Qnum Qden]. repeat split; lra. Qed.
Lemma tetra_point v p : nth_error [[0;0;0]; [1;0;0]; [0;1/4;0]; [0;0;-5]]%R (N.to_nat v) = Some p -> point_of (real_point exactQ) (ff_verts tetra) v = p.
Proof.
  destruct Q2Rs as (E0 & E1 & E4 & E5 & _). unfold point_of. intros H.
  assert (L : N.to_nat v < 4) by (apply (nth_error_Some [[0;0;0]; [1;0;0]; [0;1/4;0]; [0;0;-5]]%R); congruence).
  destruct (N.to_nat v) as [|[|[|[|]]]]; try lia; cbn in H; injection H as <-; cbn -[Q2R]; unfold real_point; cbn -[Q2R]; rewrite ?E0, ?E1, ?E4, ?E5; reflexivity.
Qed.
Lemma tetra_solid : convex_solid (cell_solid (real_point exactQ) tetra tetraOut 0 [0; 1; 2; 3]%N) /\
  poly_volume (cell_solid (real_point exactQ) tetra tetraOut 0 [0; 1; 2; 3]%N) = (5 / 24)%R.
Proof.
  set (a := [0; 0; 0]%R). set (b := [1; 0; 0]%R). set (c := [0; 1/4; 0]%R). set (d := [0; 0; -5]%R).
  assert (E : cell_solid (real_point exactQ) tetra tetraOut 0 [0; 1; 2; 3]%N = [[a; b; c]; [a; d; b]; [a; c; d]; [d; c; b]]).
  { unfold cell_solid, face_seen, tetraOut. cbn [map]. change (nth (N.to_nat 0) (ff_polys tetra) []) with [0; 1; 2]%N.
    change (nth (N.to_nat 1) (ff_polys tetra) []) with [0; 3; 1]%N. change (nth (N.to_nat 2) (ff_polys tetra) []) with [0; 2; 3]%N.
    change (nth (N.to_nat 3) (ff_polys tetra) []) with [1; 2; 3]%N. cbn [turned rev app map].
    now rewrite (tetra_point 0 a eq_refl), (tetra_point 1 b eq_refl), (tetra_point 2 c eq_refl), (tetra_point 3 d eq_refl). }
  rewrite E. split.
  - apply (convex_four _ a b c d); try reflexivity.
    + unfold closed_surface. cbn [flat_map cycle_edges path_edges app map]. unfold rev_edge. cbn [fst snd]. T_Volume.perm_tac.
    + intros f [<-|[<-|[<-|[<-|[]]]]]; [exists a, b, c, d|exists a, d, b, c|exists a, c, d, b|exists d, c, b, a];
        (split; [reflexivity|]; split; [unfold vol6, det3, px, py, pz, a, b, c, d; cbn [nth]; lra|intros x; simpl; tauto]).
    + intros x Hx. simpl in Hx. destruct Hx as [<-|[<-|[<-|[<-|[]]]]];
        [exists [a; b; c]|exists [a; b; c]|exists [a; b; c]|exists [a; d; b]]; simpl; tauto.
  - unfold poly_volume, face_fan, vol6, det3, px, py, pz, Rsum, a, b, c, d; cbn. lra.
Qed.
Example C78_fpma_instance :
  convex_file3 (real_point exactQ) tetra tetraOut /\
  exists m u ls Fs, readFPMA exactQ 0 tetraText (emptyMesh 3) = Ok m /\
    initializeCenters (K := numR) false (mkU (with_points (real_point exactQ) m) [] [] []) = Ok u /\
    elementMeasures (K := numR) false u = Ok [ls; Fs; [(5 / 24)%R]].
Proof.
  destruct C85_instance as (FO & W & SH & _). destruct tetra_solid as [CS PV].
  assert (CF : convex_file3 (real_point exactQ) tetra tetraOut).
  { constructor.
    - exact FO.
    - cbn. lia.
    - cbn [tetra ff_polys ff_verts]. intros p [<-|[<-|[<-|[<-|[]]]]]; (split; [split; [apply nodupb_sound; reflexivity|cbn; lia]|]);
        intros v Hv; simpl in Hv; repeat (destruct Hv as [<-|Hv]; [reflexivity|]); destruct Hv.
    - intros f Hf. cbn in Hf. exists [0; 1; 2; 3]%N. split; [left; reflexivity|].
      assert (f = 0 \/ f = 1 \/ f = 2 \/ f = 3)%N as [-> | [-> | [-> | ->]]] by lia; simpl; auto.
    - intros c fs Hc. assert (c = 0)%N. { assert (L : N.to_nat c < 1) by (apply (nth_error_Some (ff_cells tetra)); congruence). lia. }
      subst c. cbn in Hc. injection Hc as <-. exact CS.
    - intros f c c' fs fs' Hc Hc' _ _ Ne. exfalso. apply Ne.
      assert (N.to_nat c < 1) by (apply (nth_error_Some (ff_cells tetra)); congruence).
      assert (N.to_nat c' < 1) by (apply (nth_error_Some (ff_cells tetra)); congruence). lia. }
  split; [exact CF|].
  destruct (C78_fpma_text Q exactQ 0 tetra tetraOut _ _ _ false false false [] [] [] CF (or_introl eq_refl) W SH)
    as (m & u & ls & Fs & Vs & ns & E & E1 & E2 & _ & LV & H).
  exists m, u, ls, Fs. split; [exact E|]. split; [exact E1|]. rewrite E2. destruct (H 0%N [0; 1; 2; 3]%N eq_refl) as (A & _).
  rewrite PV in A. destruct Vs as [|v [|v0 Vs]]; [discriminate LV| |discriminate LV]. change (nth_error [v] (N.to_nat 0)) with (Some v) in A. now injection A as ->.
Qed.

(** Two tetrahedra with a common face, the first positively and the second negatively oriented: volumes 1/6 and 1/3. *)
Definition pair3 : vtk_file Q := mkVtk [((0, 0, 0)); ((1, 0, 0)); ((0, 1, 0)); ((0, 0, 1)); ((1, 1, 1))]%Q [[0; 1; 2; 3]; [4; 1; 2; 3]]%N [10; 10]%N.
Definition pairW1 : list (text * text) := [(eol, str "ASCII"); (eol, str "DATASET"); (b1, str "UNSTRUCTURED_GRID"); (eol, str "POINTS"); (b1, str "5")].
Definition pairW2 : list (text * text) :=
  [(b1, str "0"); (b1, str "0"); (b1, str "0"); (eol, str "1"); (b1, str "0"); (b1, str "0"); (eol, str "0"); (b1, str "1"); (b1, str "0");
   (eol, str "0"); (b1, str "0"); (b1, str "1"); (eol, str "1"); (b1, str "1"); (b1, str "1")].
Definition pairW3 : list (text * text) :=
  [(eol, str "4"); (b1, str "0"); (b1, str "1"); (b1, str "2"); (b1, str "3"); (eol, str "4"); (b1, str "4"); (b1, str "1"); (b1, str "2"); (b1, str "3")].
Definition pairW4 : list (text * text) := [(eol, str "10"); (b1, str "10")].
Definition pairText : text :=
  str "# vtk DataFile Version 2.0" ++ nl :: str "two tetrahedra" ++ nl ::
  spelled pairW1 (str " double" ++ nl :: spelled (pairW2 ++ [(eol, str "CELLS"); (b1, str "2")]) (str " 10" ++ nl ::
  spelled (pairW3 ++ [(eol, str "CELL_TYPES"); (b1, str "2")] ++ pairW4) [nl])).
Lemma pair_text : vtk_text exactQ pair3 pairText.
Proof.
  exists (str "# vtk DataFile Version 2.0"), (str "two tetrahedra"), (str "5"), (map snd pairW2), (str "2"), (map snd pairW3), (str "2"), (map snd pairW4),
      (str " double"), (str " 10"), [nl]. do 3 eexists.
  split; [reflexivity|]. split; [apply nin_check; reflexivity|]. split; [apply nin_check; reflexivity|]. split; [apply Nat.ltb_lt; reflexivity|]. split; [apply Nat.ltb_lt; reflexivity|].
  split; [apply (words_spelled pairW1); reflexivity|]. split; [apply index_plain; reflexivity|].
  split; [split; [apply nin_check; reflexivity|split; [apply Nat.ltb_lt; reflexivity|reflexivity]]|].
  split; [apply (words_spelled (pairW2 ++ [(eol, str "CELLS"); (b1, str "2")])); reflexivity|].
  split; [repeat (constructor; [first [apply (coord_plain _ 0); reflexivity|apply (coord_plain _ 1); reflexivity]|]); constructor|].
  split; [apply index_plain; reflexivity|].
  split; [split; [apply nin_check; reflexivity|split; [apply Nat.ltb_lt; reflexivity|reflexivity]]|].
  split; [apply (words_spelled (pairW3 ++ [(eol, str "CELL_TYPES"); (b1, str "2")] ++ pairW4)); reflexivity|].
  split; [repeat (constructor; [apply index_plain; reflexivity|]); constructor|].
  split; [apply index_plain; reflexivity|]. repeat (constructor; [apply code_plain; reflexivity|]); constructor.
Qed.
Lemma pair_point v p : nth_error [[0;0;0]; [1;0;0]; [0;1;0]; [0;0;1]; [1;1;1]]%R (N.to_nat v) = Some p -> point_of (real_point exactQ) (vf_pts pair3) v = p.
Proof.
  destruct Q2Rs as (E0 & E1 & _). unfold point_of. intros H.
  assert (L : N.to_nat v < 5) by (apply (nth_error_Some [[0;0;0]; [1;0;0]; [0;1;0]; [0;0;1]; [1;1;1]]%R); congruence).
  destruct (N.to_nat v) as [|[|[|[|[|]]]]]; try lia; cbn in H; injection H as <-; cbn -[Q2R]; unfold real_point; cbn -[Q2R]; rewrite ?E0, ?E1; reflexivity.
Qed.
Lemma pair_cells i vs : nth_error (vf_cells pair3) i = Some vs -> i = 0 /\ vs = [0; 1; 2; 3]%N \/ i = 1 /\ vs = [4; 1; 2; 3]%N.
Proof. destruct i as [|[|[|]]]; cbn; intros H; try discriminate; injection H as <-; auto. Qed.
Lemma perm_first (a : N) l x y z d : Permutation (a :: l) [x; y; z; d] -> ~ In a [x; y; z] -> d = a /\ Permutation l [x; y; z].
Proof.
  intros H N. assert (E : d = a).
  { pose proof (Permutation_in a H (or_introl eq_refl)) as I. change [x; y; z; d] with ([x; y; z] ++ [d]) in I. apply in_app_or in I as [I|[I|[]]]; [tauto|exact I]. }
  subst d. split; [reflexivity|]. apply (Permutation_cons_inv (a := a)). rewrite H. symmetry. apply (Permutation_cons_append [x; y; z]).
Qed.
Lemma pair_side x y z d d' : Permutation [0; 1; 2; 3]%N [x; y; z; d] -> Permutation [4; 1; 2; 3]%N [x; y; z; d'] ->
  let P := point_of (real_point exactQ) (vf_pts pair3) in (vol6 (P x) (P y) (P z) (P d) * vol6 (P x) (P y) (P z) (P d') < 0)%R.
Proof.
  intros H H' P.
  assert (N0 : ~ In 0%N [x; y; z]).
  { intros I. assert (J : In 0%N [4; 1; 2; 3]%N).
    { apply (Permutation_in 0%N (Permutation_sym H')). change [x; y; z; d'] with ([x; y; z] ++ [d']). apply in_or_app. auto. }
    simpl in J. intuition discriminate. }
  assert (N4 : ~ In 4%N [x; y; z]).
  { intros I. assert (J : In 4%N [0; 1; 2; 3]%N).
    { apply (Permutation_in 4%N (Permutation_sym H)). change [x; y; z; d] with ([x; y; z] ++ [d]). apply in_or_app. auto. }
    simpl in J. intuition discriminate. }
  destruct (perm_first _ _ _ _ _ _ H N0) as [-> Q]. destruct (perm_first _ _ _ _ _ _ H' N4) as [-> _].
  unfold P. rewrite (pair_point 0 [0; 0; 0]%R eq_refl), (pair_point 4 [1; 1; 1]%R eq_refl).
  destruct (perm3 _ _ _ _ Q) as [E|[E|[E|[E|[E|E]]]]]; injection E as -> -> ->;
    rewrite (pair_point 1 [1; 0; 0]%R eq_refl), (pair_point 2 [0; 1; 0]%R eq_refl), (pair_point 3 [0; 0; 1]%R eq_refl);
    unfold vol6, det3, px, py, pz; cbn [nth]; lra.
Qed.
Lemma pair_grid : tet_grid (real_point exactQ) pair3.
Proof.
  constructor.
  - intros vs H. apply In_nth_error in H as (i & Hi). apply pair_cells in Hi as [[_ ->]|[_ ->]]; split;
      try (intros v Hv; simpl in Hv; repeat (destruct Hv as [<-|Hv]; [reflexivity|]); destruct Hv); [exists 0%N, 1%N, 2%N, 3%N|exists 4%N, 1%N, 2%N, 3%N]; (split; [reflexivity|]); cbv zeta;
      rewrite ?(pair_point 0 [0; 0; 0]%R eq_refl), ?(pair_point 4 [1; 1; 1]%R eq_refl), (pair_point 1 [1; 0; 0]%R eq_refl), (pair_point 2 [0; 1; 0]%R eq_refl), (pair_point 3 [0; 0; 1]%R eq_refl);
      unfold vol6, det3, px, py, pz; cbn [nth]; lra.
  - intros c c' vs vs' x y z d d' Hc Hc' Ne Hp Hp' P. apply pair_cells in Hc as [[-> ->]|[-> ->]]; apply pair_cells in Hc' as [[-> ->]|[-> ->]]; try congruence.
    + now apply pair_side.
    + rewrite Rmult_comm. now apply pair_side.
  - unfold INVALID. cbn. lia.
  - cbn. lia.
Qed.
Example C78_tets_instance : tet_grid (real_point exactQ) pair3 /\ vtk_text exactQ pair3 pairText /\
  exists m types u ls Fs, readVTK3 exactQ 0 pairText (emptyMesh 3) [] = Ok (m, types) /\
    initializeCenters (K := numR) false (mkU (with_points (real_point exactQ) m) [] [] []) = Ok u /\
    elementMeasures (K := numR) false u = Ok [ls; Fs; [(1 / 6)%R; (1 / 3)%R]].
Proof.
  split; [exact pair_grid|]. split; [exact pair_text|].
  destruct (C78_tets_text Q exactQ 0 pair3 pairText (emptyMesh 3) [] false false [] [] [] pair_grid (or_introl eq_refl) pair_text eq_refl eq_refl)
    as (m & types & u & ls & Fs & E & E1 & E2 & _).
  exists m, types, u, ls, Fs. split; [exact E|]. split; [exact E1|]. rewrite E2. cbn [map vf_cells pair3]. unfold tet_volume. cbn [map].
  rewrite (pair_point 0 [0; 0; 0]%R eq_refl), (pair_point 4 [1; 1; 1]%R eq_refl), (pair_point 1 [1; 0; 0]%R eq_refl), (pair_point 2 [0; 1; 0]%R eq_refl), (pair_point 3 [0; 0; 1]%R eq_refl).
  unfold vol6, det3, px, py, pz; cbn [nth].
  set (x := Rabs _). set (y := Rabs _).
  assert (Ex : (x / 6 = 1 / 6)%R) by (unfold x; rewrite Rabs_pos_eq by lra; lra).
  assert (Ey : (y / 6 = 1 / 3)%R) by (unfold y; rewrite Rabs_left by lra; lra). now rewrite Ex, Ey.
Qed.

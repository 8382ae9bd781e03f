(** The read / write tests of the project (/repo/tests/UnstructuredMesh/UnstructuredMeshTest.cpp), evaluated on the model character by character
    (see [Ex_RepoTests]). *)
From Coq Require Import QArith Qabs Qreduction String Ascii.
From Verif Require Import Base M_Index M_Conn M_Mesh M_Color M_Vec M_Geom M_GeomN M_Object M_Text M_Print M_FPMA M_VTK M_VTKWrite M_Stream M_FileText M_VTKData M_DataText
  Ex_Mesh Ex_RepoTests.
Local Open Scope list_scope.
Local Open Scope N_scope.
Local Notation "a 'E-' b" := (Qmake a%Z (Pos.pow 10 b%positive)) (at level 1, no associativity).

(** double, without its rounding *)
Definition exact : fp Q := mkFp Q (fun c => c) (fun q => q).
Definition mapVerts {A B} (f : A -> B) (m : Mesh A) : Mesh B := mkMesh (m_dim m) (map f (m_verts m)) (m_mid m) (m_faces m) (m_cells m) (m_bcells m).
Definition v2 (p : Q * Q) : vec numQ := [fst p; snd p].
Definition v3 (p : Q * Q * Q) : vec numQ := [fst (fst p); snd (fst p); snd p].
Definition p2 (v : vec numQ) : Q * Q := (nth 0 v 0, nth 1 v 0)%Q.
Definition p3 (v : vec numQ) : Q * Q * Q := (nth 0 v 0, nth 1 v 0, nth 2 v 0)%Q.
Definition initial (m : Mesh (vec numQ)) : outcome (UMesh numQ) := initializeCenters false (fresh m).
(** lines 151-154: the columns center and color *)
Definition cellColumns (u : UMesh numQ) (col : list nat) : list (text * coldata (num Q)) :=
  [(str "center", Ve (map (map Fl) (u_cc u))); (str "color", Sc (map (fun c => Un64 (N.of_nat c)) col))].
(** EXPECT_TRUE(floatArrayCompare(...)) for the two members *)
Definition nearV (a b : num Q) : bool :=
  match a, b with Fl x, Fl y => close x y | Un64 x, Un64 y => N.eqb x y | In32 x, In32 y => Z.eqb x y | _, _ => false end.
Definition nearColumn (a b : coldata (num Q)) : bool :=
  match a, b with Sc x, Sc y => all2 nearV x y | Ve x, Ve y => all2 (all2 nearV) x y | _, _ => false end.

(** * UnstructuredMesh2DReadWrite, lines 139-186 *)
Definition file2 : outcome (text * list (text * coldata (num Q))) :=
  u <- initial square ;;
  col <- color_greedy square 2 1 ;;
  s <- writeVTK2text exact (mapVerts p2 square) [TRIANGLE; TRIANGLE] ;;
  d <- dataText (columnText2 exact) 2 (cellColumns u col) ;;
  Ok (headerText (str "test data") ++ s ++ d, cellColumns u col).
Definition load2 : outcome (Mesh (vec numQ) * list (coldata (num Q)) * list (text * coldata (num Q))) :=
  f <- file2 ;;
  r <- readVTK2 exact (fst f) (emptyMesh 2) [] ;;
  d <- readDataText exact 2 (length (m_cells (fst r))) (fst f) [(str "center", MV TFl 2); (str "color", MS TUn)] ;;
  Ok (mapVerts v2 (fst r), d, snd f).
Definition mesh2 : outcome (UMesh numQ) := l <- load2 ;; initial (fst (fst l)).
Example read_write_2d :
  near1 (u <- mesh2 ;; table 0 (elementMeasures false u)) [1; 1; 141421 E- 5; 1; 1]%Q = true /\
  near1 (u <- mesh2 ;; table 1 (elementMeasures false u)) [5 E- 1; 5 E- 1] = true /\
  match load2 with Ok (_, d, c) => all2 nearColumn d (map snd c) | _ => false end = true.
Proof. vm_compute. repeat split. Qed.

(** * MeshRefineTest, lines 290-378 *)
Definition write3 (m : Mesh (vec numQ)) (cols : list (text * coldata (num Q))) (types : list etype) : outcome (text * list (N * N)) :=
  u <- initial m ;;
  ori <- edgesOrientation m (u_cc u) (u_fc u) ;;
  let center l := fun i => p3 (nth (N.to_nat i) l []) in
  t <- indexMesh3 ori (center (u_cc u)) (center (u_fc u)) (centerKey exact) (mapVerts p3 m) types ;;
  s <- writeVTK3text exact ori (center (u_cc u)) (center (u_fc u)) (mapVerts p3 m) types ;;
  d <- dataText (columnText3 exact (rev (t_back t))) (N.of_nat (length (t_cells t))) cols ;;
  Ok (headerText (str "test data") ++ s ++ d, rev (t_back t)).
Definition read3 (f : text) : outcome (Mesh (vec numQ) * list (coldata (num Q))) :=
  r <- readVTK3 exact 6 f (emptyMesh 3) [] ;;
  d <- readDataText exact 3 (length (m_cells (fst r))) f [(str "center", MV TFl 3); (str "color", MS TUn)] ;;
  Ok (mapVerts v3 (fst r), d).
Definition cols3 : outcome (list (text * coldata (num Q))) := u <- initial prisms ;; col <- color_greedy prisms 3 1 ;; Ok (cellColumns u col).
Definition load3 : outcome (Mesh (vec numQ) * list (coldata (num Q))) := c <- cols3 ;; f <- write3 prisms c [WEDGE; WEDGE] ;; read3 (fst f).
Definition mesh3 : outcome (UMesh numQ) := l <- load3 ;; initial (fst l).
Example read_write_3d :
  near2 (l <- load3 ;; table 2 (computeCenters (K := numQ) false (fst l))) [[333333 E- 6; 333333 E- 6; 5 E- 1]; [666667 E- 6; 666667 E- 6; 5 E- 1]] = true /\
  near1 (u <- mesh3 ;; table 0 (elementMeasures false u)) [1; 141421 E- 5; 1; 1; 1; 1; 1; 141421 E- 5; 1; 1; 1; 1; 1; 1]%Q = true /\
  near1 (u <- mesh3 ;; table 1 (elementMeasures false u)) [5 E- 1; 1; 141421 E- 5; 1; 5 E- 1; 5 E- 1; 1; 1; 5 E- 1]%Q = true /\
  near1 (u <- mesh3 ;; table 2 (elementMeasures false u)) [5 E- 1; 5 E- 1]%Q = true /\
  match load3, cols3 with Ok (_, d), Ok c => all2 nearColumn d (map snd c) | _, _ => false end = true.
Proof. vm_compute. repeat split. Qed.
(** lines 351-377: the reloaded mesh written as tessellated polyhedra; [source]: backwardCellIndexMapping of the cells of the file *)
Definition refined : outcome (list (coldata (num Q)) * list N * nat) :=
  c <- cols3 ;; l <- load3 ;;
  f <- write3 (fst l) c [POLYHEDRON; POLYHEDRON] ;;
  r <- read3 (fst f) ;;
  Ok (snd r, map snd (snd f), length (m_cells (fst r))).
Definition pull {A} (source : list N) (l : list A) (d : A) : list A := map (fun c => nth (N.to_nat c) l d) source.
Definition pullColumn (source : list N) (d : coldata (num Q)) : coldata (num Q) :=
  match d with Sc l => Sc (pull source l (Fl 0%Q)) | Ve l => Ve (pull source l []) end.
Example refine_3d :
  match refined, cols3 with
  | Ok (d, source, n), Ok c => all2 nearColumn d (map (fun k => pullColumn source (snd k)) c) && Nat.eqb (length source) n && Nat.eqb n 36
  | _, _ => false
  end = true.
Proof. vm_compute. reflexivity. Qed.

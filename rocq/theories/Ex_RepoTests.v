(** The expectations of the project's own unit tests (/repo/tests), evaluated on the model. These are tests of the MODEL against results the authors state for
    the real library (not proofs of properties): each example computes with the definitions the theorems are about. Floating point numbers are replaced by rationals
    with 18 decimals; as in the tests, numbers are compared with the tolerance 1e-5. *)
From Coq Require Import QArith Qabs Qreduction String Ascii.
From Verif Require Import Base M_Index M_Conn M_Mesh M_Apply M_Connections M_Color M_Vec M_Geom M_GeomN M_Object Ex_Mesh.
Local Open Scope list_scope.
Local Open Scope N_scope.

(** * Arithmetic *)
(** Rounding to 18 decimals. *)
Definition scale : positive := 1000000000000000000.
Definition cut (q : Q) : Q := Qred (Qnum q * Zpos scale / Zpos (Qden q) # scale).
Definition sqrtQ (q : Q) : Q := cut (Z.sqrt (Qnum q * Zpos scale * Zpos scale / Zpos (Qden q)) # scale).
Definition numQ : Num :=
  mkNum Q 0%Q 1%Q (fun a b => cut (a + b)) (fun a b => cut (a - b)) (fun a b => cut (a * b)) (fun a b => cut (a / b)) (fun a => Qred (- a))
        sqrtQ Qabs (fun a b => negb (Qle_bool a b)) Qeq_bool.
(** tests/UnstructuredMesh/UnstructuredMeshTest.cpp:17-29 floatArrayCompare *)
Definition close (a b : Q) : bool := negb (Qle_bool (1 # 100000) (Qabs (a - b))).
Fixpoint all2 {A B} (f : A -> B -> bool) (l : list A) (k : list B) : bool :=
  match l, k with [], [] => true | a :: l', b :: k' => f a b && all2 f l' k' | _, _ => false end.
Definition near1 (o : outcome (list Q)) (l : list Q) : bool := match o with Ok x => all2 close x l | _ => false end.
Definition near2 (o : outcome (list (list Q))) (l : list (list Q)) : bool := match o with Ok x => all2 (all2 close) x l | _ => false end.
Definition table (k : nat) {A} (o : outcome (list (list A))) : outcome (list A) := l <- o ;; vat l (N.of_nat k).
(** a decimal number *)
Local Notation "a 'E-' b" := (Qmake a%Z (Pos.pow 10 b%positive)) (at level 1, no associativity).

(** * UnstructuredMesh2D_Functions_Test, UnstructuredMeshTest.cpp:46-130 *)
(** MeshSetup.h:255-297 square *)
Definition square : Mesh (vec numQ) :=
  mkMesh 2 [[0; 0]; [0; 1]; [1; 0]; [1; 1]]%Q []
    [mkF [1; 0] [(1, 0)]; mkF [0; 2] [(2, 0)]; mkF [2; 1] [(0, 0); (3, 1)]; mkF [3; 1] [(4, 1)]; mkF [2; 3] [(2, 1)]]
    [0; 2] [].
Definition squareObj : outcome (UMesh numQ) := u <- initializeCenters false (fresh square) ;; setupBoundaryCenters (setupBoundary u).
Definition face0 {K} (o : outcome (UMesh K)) : outcome Face := u <- o ;; vidx (m_faces (u_mesh u)) 0.
Definition others (o : outcome Face) (c : N) : outcome N := f <- o ;; getOtherCellIndex (bc (f_conn f)) c.
Definition nexts (o : outcome Face) (c : N) : outcome N := f <- o ;; getNextBElem (f_conn f) c.

Definition bi (i : N) : N := makeBoundaryIndex 64 i.

Example square_sides :
  isInvalidIndex 64 (cellRight (bc (f_conn (nth 0 (m_faces square) (mkF [] []))))) = true /\
  match face0 squareObj with
  | Ok f => isBoundaryIndex 64 (cellRight (bc (f_conn f))) = true /\ extractBoundaryIndex 64 (cellRight (bc (f_conn f))) = 0 /\ cellLeft (bc (f_conn f)) = 0
  | _ => False
  end /\
  others (face0 squareObj) (bi 0) = Ok 0 /\ others (face0 squareObj) 0 = Ok (bi 0) /\
  nexts (face0 squareObj) 0 = Ok 1 /\ nexts (face0 squareObj) (bi 0) = Ok INVALID /\
  others (face0 squareObj) 1 = Throw /\ nexts (face0 squareObj) 1 = Throw.
Proof. vm_compute. repeat split. Qed.

Example square_geometry :
  near2 (u <- squareObj ;; c <- vidx (u_fc u) 0 ;; Ok [c]) [[0; 1 # 2]]%Q = true /\
  near2 (table 1 (computeCenters (K := numQ) false square)) [[333333 E- 6; 333333 E- 6]; [666667 E- 6; 666667 E- 6]] = true /\
  near1 (u <- squareObj ;; table 0 (elementMeasures false u)) [1; 1; 141421 E- 5; 1; 1]%Q = true /\
  near1 (u <- squareObj ;; table 1 (elementMeasures false u)) [5 E- 1; 5 E- 1]%Q = true /\
  near2 (u <- squareObj ;; faceNormals false u) [[-1; 0]; [0; -1]; [707107 E- 6; 707107 E- 6]; [0; 1]; [1; 0]]%Q = true /\
  near1 (u <- squareObj ;; cellDistances u) [372678 E- 6; 372678 E- 6; 471405 E- 6; 372678 E- 6; 372678 E- 6]%Q = true.
Proof. vm_compute. repeat split. Qed.

Example square_connections :
  connections square 2 0 = Ok [[0; 1; 2]; [1; 2; 3]] /\ connections square 2 1 = Ok [[0; 1; 2]; [2; 3; 4]] /\
  connections square 1 2 = Ok [[0]; [0]; [0; 1]; [1]; [1]] /\ connections square 0 2 = Ok [[0]; [0; 1]; [0; 1]; [1]] /\
  neighbors square 2 0 2 = Ok [[1]; [0]] /\ neighbors square 2 1 0 = Ok [[0; 1; 2]; [1; 2; 3]] /\
  neighbors square 1 2 0 = Ok [[0; 1; 2]; [0; 1; 2]; [0; 1; 2; 3]; [1; 2; 3]; [1; 2; 3]] /\
  neighbors square 0 2 0 = Ok [[1; 2]; [0; 2; 3]; [0; 1; 3]; [1; 2]].
Proof. vm_compute. repeat split. Qed.

(** UnstructuredMeshTest.cpp:32-43 testProperColoring *)
Definition properColoring {V} (m : Mesh V) (a b : nat) (o : outcome (list nat)) : bool :=
  match o, neighbors m a b a with
  | Ok cs, Ok nb => all2 (fun c l => forallb (fun j => negb (Nat.eqb c (nth (N.to_nat j) cs 0%nat))) l) cs nb
  | _, _ => false
  end.
Example square_colors :
  properColoring square 1 0 (color_greedy square 1 0) = true /\ properColoring square 0 1 (color_greedy square 0 1) = true /\
  properColoring square 1 0 (color_random square 1 0 (fun i => (i * 7 + 3) mod 5)%nat) = true.
Proof. vm_compute. repeat split. Qed.

(** * UnstructuredMesh3D_Functions_Test, UnstructuredMeshTest.cpp:193-297 *)
Definition prisms : Mesh (vec numQ) :=
  mkMesh 3 (map (fun p => [inject_Z (fst (fst p)); inject_Z (snd (fst p)); inject_Z (snd p)]) (m_verts twoPrisms))
    (m_mid twoPrisms) (m_faces twoPrisms) (m_cells twoPrisms) (m_bcells twoPrisms).
Definition prismsObj : outcome (UMesh numQ) := u <- initializeCenters false (fresh prisms) ;; setupBoundaryCenters (setupBoundary u).

Example prisms_sides :
  isInvalidIndex 64 (cellRight (bc (f_conn (nth 0 (m_faces prisms) (mkF [] []))))) = true /\
  match face0 prismsObj with
  | Ok f => isBoundaryIndex 64 (cellRight (bc (f_conn f))) = true /\ extractBoundaryIndex 64 (cellRight (bc (f_conn f))) = 0 /\ cellLeft (bc (f_conn f)) = 0
  | _ => False
  end /\
  others (face0 prismsObj) (bi 0) = Ok 0 /\ others (face0 prismsObj) 0 = Ok (bi 0) /\
  nexts (face0 prismsObj) (bi 0) = Ok INVALID /\ others (face0 prismsObj) 1 = Throw /\ nexts (face0 prismsObj) 1 = Throw.
Proof. vm_compute. repeat split. Qed.

Definition prismNormals : list (list Q) :=
  [[0; 0; -1]; [0; 0; -1]; [0; -1; 0]; [-1; 0; 0]; [0; 1; 0]; [1; 0; 0]; [0; 0; 1]; [0; 0; 1]; [707107 E- 6; 707107 E- 6; 0]]%Q.
Example prisms_geometry :
  near2 (table 2 (computeCenters (K := numQ) false prisms)) [[333333 E- 6; 333333 E- 6; 5 E- 1]; [666667 E- 6; 666667 E- 6; 5 E- 1]] = true /\
  near2 (table 1 (computeCenters (K := numQ) false prisms))
    [[333333 E- 6; 333333 E- 6; 0]; [666667 E- 6; 666667 E- 6; 0]; [5 E- 1; 0; 5 E- 1]; [0; 5 E- 1; 5 E- 1]; [5 E- 1; 1; 5 E- 1]; [1; 5 E- 1; 5 E- 1];
     [333333 E- 6; 333333 E- 6; 1]; [666667 E- 6; 666667 E- 6; 1]; [5 E- 1; 5 E- 1; 5 E- 1]]%Q = true /\
  (forall tess : bool,
     near1 (u <- prismsObj ;; table 0 (elementMeasures tess u)) [1; 1; 1; 1; 1; 1; 1; 1; 1; 1; 1; 1; 141421 E- 5; 141421 E- 5]%Q = true /\
     near1 (u <- prismsObj ;; table 1 (elementMeasures tess u)) [5 E- 1; 5 E- 1; 1; 1; 1; 1; 5 E- 1; 5 E- 1; 141421 E- 5]%Q = true /\
     near1 (u <- prismsObj ;; table 2 (elementMeasures tess u)) [5 E- 1; 5 E- 1]%Q = true /\
     near2 (u <- prismsObj ;; faceNormals tess u) prismNormals = true) /\
  near1 (u <- prismsObj ;; cellDistances u)
    [5 E- 1; 5 E- 1; 372678 E- 6; 372678 E- 6; 372678 E- 6; 372678 E- 6; 5 E- 1; 5 E- 1; 471405 E- 6]%Q = true.
Proof. split; [|split; [|split; [intros []|]]]; vm_compute; repeat split. Qed.

Example prisms_connections :
  connections prisms 2 0 = Ok [[0; 1; 2]; [1; 2; 3]; [0; 1; 4; 5]; [0; 2; 4; 6]; [2; 3; 6; 7]; [1; 3; 5; 7]; [4; 5; 6]; [5; 6; 7]; [1; 2; 5; 6]] /\
  connections prisms 3 0 = Ok [[0; 1; 2; 4; 5; 6]; [1; 2; 3; 5; 6; 7]] /\
  connections prisms 0 3 = Ok [[0]; [0; 1]; [0; 1]; [1]; [0]; [0; 1]; [0; 1]; [1]] /\
  connections prisms 1 3 = Ok [[0]; [0]; [1]; [1]; [0]; [0; 1]; [1]; [0; 1]; [0]; [1]; [1]; [0]; [0; 1]; [0; 1]] /\
  neighbors prisms 2 0 2 =
    Ok [[1; 2; 3; 4; 5; 8]; [0; 2; 3; 4; 5; 8]; [0; 1; 3; 5; 6; 7; 8]; [0; 1; 2; 4; 6; 7; 8]; [0; 1; 3; 5; 6; 7; 8]; [0; 1; 2; 4; 6; 7; 8];
        [2; 3; 4; 5; 7; 8]; [2; 3; 4; 5; 6; 8]; [0; 1; 2; 3; 4; 5; 6; 7]] /\
  neighbors prisms 2 3 0 =
    Ok [[0; 1; 2; 4; 5; 6]; [1; 2; 3; 5; 6; 7]; [0; 1; 2; 4; 5; 6]; [0; 1; 2; 4; 5; 6]; [1; 2; 3; 5; 6; 7]; [1; 2; 3; 5; 6; 7];
        [0; 1; 2; 4; 5; 6]; [1; 2; 3; 5; 6; 7]; [0; 1; 2; 3; 4; 5; 6; 7]] /\
  neighbors prisms 0 2 0 =
    Ok [[1; 2; 4; 5; 6]; [0; 2; 3; 4; 5; 6; 7]; [0; 1; 3; 4; 5; 6; 7]; [1; 2; 5; 6; 7]; [0; 1; 2; 5; 6]; [0; 1; 2; 3; 4; 6; 7];
        [0; 1; 2; 3; 4; 5; 7]; [1; 2; 3; 5; 6]] /\
  neighbors prisms 3 2 0 = Ok [[0; 1; 2; 4; 5; 6]; [1; 2; 3; 5; 6; 7]].
Proof. vm_compute. repeat split. Qed.

Example prisms_colors :
  let rng := (fun i => (i * 7 + 3) mod 5)%nat in
  forallb (fun ab => properColoring prisms (fst ab) (snd ab) (color_greedy prisms (fst ab) (snd ab)) &&
                     properColoring prisms (fst ab) (snd ab) (color_random prisms (fst ab) (snd ab) rng))
    [(1, 0); (0, 1); (0, 3); (2, 0)]%nat = true.
Proof. vm_compute. reflexivity. Qed.

(** * Mesh4D, UnstructuredMeshTest.cpp:381-428 *)
(** MeshSetup.h:300-421 Pyramid4D: all faces are attached to cell 0 and form its ring *)
Definition simplex4 : Mesh (vec numQ) :=
  mkMesh 4 [[0; 0; 0; 0]; [1; 0; 0; 0]; [0; 1; 0; 0]; [0; 0; 1; 0]; [0; 0; 0; 1]]%Q
    [[[0; 1]; [0; 2]; [1; 2]; [0; 3]; [1; 3]; [2; 3]; [0; 4]; [1; 4]; [2; 4]; [3; 4]];
     [[0; 1; 2]; [0; 3; 4]; [2; 4; 5]; [1; 3; 5]; [0; 6; 7]; [1; 6; 8]; [2; 7; 8]; [3; 6; 9]; [4; 7; 9]; [5; 8; 9]]]
    [mkF [0; 1; 2; 3] [(1, 0)]; mkF [0; 4; 5; 6] [(2, 0)]; mkF [1; 4; 7; 8] [(3, 0)]; mkF [2; 6; 8; 9] [(4, 0)]; mkF [3; 5; 7; 9] [(0, 0)]]
    [0] [].
Example simplex4_connections :
  connections simplex4 2 0 = Ok [[0; 1; 2]; [0; 1; 3]; [1; 2; 3]; [0; 2; 3]; [0; 1; 4]; [0; 2; 4]; [1; 2; 4]; [0; 3; 4]; [1; 3; 4]; [2; 3; 4]] /\
  connections simplex4 3 0 = Ok [[0; 1; 2; 3]; [0; 1; 2; 4]; [0; 1; 3; 4]; [1; 2; 3; 4]; [0; 2; 3; 4]] /\
  connections simplex4 4 0 = Ok [[0; 1; 2; 3; 4]].
Proof. vm_compute. repeat split. Qed.

Definition simplex4Obj : outcome (UMesh numQ) := initializeCenters false (fresh simplex4).
Example simplex4_geometry :
  let cs := computeCenters (K := numQ) false simplex4 in
  let t := 333333 E- 6 in let q := 25 E- 2 in let h := 5 E- 1 in
  near2 (table 3 cs) [[2 E- 1; 2 E- 1; 2 E- 1; 2 E- 1]] = true /\
  near2 (table 2 cs) [[q; q; q; 0]; [q; q; 0; q]; [q; 0; q; q]; [q; q; q; q]; [0; q; q; q]]%Q = true /\
  near2 (table 1 cs) [[t; t; 0; 0]; [t; 0; t; 0]; [t; t; t; 0]; [0; t; t; 0]; [t; 0; 0; t]; [0; t; 0; t]; [t; t; 0; t]; [0; 0; t; t]; [t; 0; t; t]; [0; t; t; t]]%Q = true /\
  near2 (table 0 cs) [[h; 0; 0; 0]; [0; h; 0; 0]; [h; h; 0; 0]; [0; 0; h; 0]; [h; 0; h; 0]; [0; h; h; 0]; [0; 0; 0; h]; [h; 0; 0; h]; [0; h; 0; h]; [0; 0; h; h]]%Q = true /\
  let ms := u <- simplex4Obj ;; elementMeasures false u in
  near1 (table 0 ms) [1; 1; 141421 E- 5; 1; 141421 E- 5; 141421 E- 5; 1; 141421 E- 5; 141421 E- 5; 141421 E- 5]%Q = true /\
  near1 (table 1 ms) [h; h; 866025 E- 6; h; h; h; 866025 E- 6; h; 866025 E- 6; 866025 E- 6]%Q = true /\
  near1 (table 2 ms) [166667 E- 6; 166667 E- 6; 166667 E- 6; 333333 E- 6; 166667 E- 6]%Q = true /\
  near1 (table 3 ms) [416667 E- 7]%Q = true /\
  near2 (u <- simplex4Obj ;; faceNormals false u) [[0; 0; 0; 1]; [0; 0; 1; 0]; [0; 1; 0; 0]; [-5 E- 1; -5 E- 1; -5 E- 1; -5 E- 1]; [1; 0; 0; 0]]%Q = true.
Proof. vm_compute. repeat split. Qed.

(** Model of the mesh object together with the centres stored in its faces, cells and boundary cells
    (ComputationalySignificantElement.h): UnstructuredMesh.h:35-46, 69-125 and MeshElements.h:162-190.
    Simplifications: the flags of the elements are left out; the indices stored in elements are their positions
    (see [M_Mesh]). Dimensions 2 and higher (in dimension 1 the faces are vertices, which have no centre). *)
From Verif Require Import Base M_Conn M_Index M_Mesh M_Apply M_Vec M_Geom M_GeomN.

Section Object.
Context {K : Num}.
Local Notation vecK := (vec K).

Record UMesh := mkU { u_mesh : Mesh vecK; u_fc : list vecK; u_cc : list vecK; u_bcc : list vecK }.
Implicit Type u : UMesh.

(** ComputationalySignificantElement.h:12-15: a new element has the centre {} (zeros). *)
Definition zeroV (d : nat) : vecK := repeat nzero d.
(** A mesh whose elements were just created (by a reader). *)
Definition fresh (m : Mesh vecK) : UMesh :=
  mkU m (repeat (zeroV (m_dim m)) (length (m_faces m))) (repeat (zeroV (m_dim m)) (length (m_cells m)))
        (repeat (zeroV (m_dim m)) (length (m_bcells m))).

(** UnstructuredMesh.h:35-46 initializeCenters<Method>(): centers[face], centers[cell] are unchecked lookups
    (MeshDataContainer.h:378-390). *)
Definition initializeCenters (tess : bool) u : outcome UMesh :=
  let m := u_mesh u in
  cs <- computeCenters tess m ;;
  fc <- mapM (centerAt cs (m_dim m - 1)) (seqN (length (m_faces m))) ;;
  cc <- mapM (centerAt cs (m_dim m)) (seqN (length (m_cells m))) ;;
  Ok (mkU m fc cc (u_bcc u)).

(** MeshElements.h:162-183: the appended boundary cells are new elements; nothing else moves. *)
Definition setupBoundary u : UMesh :=
  let m' := setupBoundaryCells (u_mesh u) in
  mkU m' (u_fc u) (u_cc u) (u_bcc u ++ repeat (zeroV (m_dim m')) (length (m_bcells m') - length (m_bcells (u_mesh u)))).
(** MeshElements.h:186-190 setupBoundaryCellsCenters *)
Definition setupBoundaryCenters u : outcome UMesh :=
  bcc <- mapM (fun b => vat (u_fc u) (snd b)) (m_bcells (u_mesh u)) ;;
  Ok (mkU (u_mesh u) (u_fc u) (u_cc u) bcc).

(** UnstructuredMesh.h:79-100 computeElementMeasures<Method>(): in dimensions 2 and 3 from the stored centres, in higher
    dimensions from newly computed ones. One table per dimension 1, 2, ... *)
Definition elementMeasures (tess : bool) u : outcome (list (list K)) :=
  let m := u_mesh u in
  match m_dim m with
  | 2 => r <- computeMeasures2 m (u_cc u) ;; Ok [fst r; snd r]
  | 3 => r <- computeMeasures3 m (u_cc u) (u_fc u) ;; Ok [fst (fst r); snd (fst r); snd r]
  | _ => cs <- computeCenters tess m ;; computeMeasuresN m cs
  end.
(** UnstructuredMesh.h:105-125 computeFaceNormals<Method>() *)
Definition faceNormals (tess : bool) u : outcome (list vecK) :=
  let m := u_mesh u in
  match m_dim m with
  | 2 => computeNormals2 m
  | 3 => if tess then computeNormals3_tess m (u_cc u) (u_fc u) else computeNormals3 m (u_cc u) (u_fc u)
  | _ => cs <- computeCenters tess m ;; computeNormalsN m cs
  end.
(** CellsDistance.h:11-57 and ComputeCellsCenterDifference.h:11-45 on the object. *)
Definition cellDistances u : outcome (list K) := cellsDistance (u_mesh u) (u_cc u) (u_fc u) (u_bcc u).
Definition cellDifferences u : outcome (list vecK) :=
  centerDifference (m_dim (u_mesh u)) (u_mesh u) (u_cc u) (u_fc u) (u_bcc u).
End Object.
Arguments UMesh : clear implicits.

(** Model of the mesh storage (MeshElements/MeshElements.h, MeshElement.h).
    IndexType = size_t. Vertices carry data of an arbitrary type [V].
    Simplification: the index stored in an element object (MeshElement.h:24) is its position in the
    vector; all readers and the API examples construct elements that way. Centres, measures and
    Reserve-d storage are not part of this record (see [M_Geom], [M_Conn]). *)
From Verif Require Import Base M_Index M_Conn.

(** MeshElement.h:153-173 for ElementDim = MeshDim - 1 (and 199-236 when MeshDim = 2: an edge that is
    also a face; its subelements are then [vertexA; vertexB]). *)
Record Face := mkFace { f_subs : list N; f_conn : BConn }.

(** MeshElements.h:44-58.
    [m_mid] holds the element vectors of dimensions 1, ..., m_dim-2 (each element is its list of
    subelement indices; an edge, MeshElement.h:199-236, is [vertexA; vertexB]);
    [m_cells] holds boundaryElementIndex of each cell (MeshElement.h:245-260);
    [m_bcells] holds (index, boundaryElementIndex) of each boundary cell. *)
Record Mesh (V : Type) := mkMesh {
  m_dim : nat;
  m_verts : list V;
  m_mid : list (list (list N));
  m_faces : list Face;
  m_cells : list N;
  m_bcells : list (N * N)
}.
Arguments mkMesh {V}.
Arguments m_dim {V}.
Arguments m_verts {V}.
Arguments m_mid {V}.
Arguments m_faces {V}.
Arguments m_cells {V}.
Arguments m_bcells {V}.

Section Mesh.
Context {V : Type}.
Implicit Type m : Mesh V.

(** An empty mesh object of dimension [d] (default constructed vectors). *)
Definition emptyMesh (d : nat) : Mesh V := mkMesh d [] (repeat [] (d - 2)) [] [] [].

(** getElements<dim>().size(), MeshElements.h:69-80. *)
Definition n_elems m (k : nat) : nat :=
  if k =? 0 then length (m_verts m)
  else if k =? m_dim m then length (m_cells m)
  else if k =? m_dim m - 1 then length (m_faces m)
  else length (nth (k - 1) (m_mid m) []).

(** getElements<k>().at(i).getSubelements() for 1 <= k <= MeshDim - 1. *)
Definition subs m (k : nat) (i : N) : outcome (list N) :=
  if k =? m_dim m - 1
  then f <- vat (m_faces m) i ;; Ok (f_subs f)
  else vat (nth (k - 1) (m_mid m) []) i.

(** MeshElements.h:136-160 clear(): all element vectors of dimensions Dimension..0 are cleared.
    BoundaryCells (line 58) is not touched. *)
Definition clear m : Mesh V :=
  mkMesh (m_dim m) [] (map (fun _ => []) (m_mid m)) [] [] (m_bcells m).

(** MeshElements.h:162-167 appendBoundaryCell *)
Definition appendBoundaryCell (bcs : list (N * N)) (cellIndex faceIndex : N) : list (N * N) :=
  bcs ++ [(cellIndex, faceIndex)].

Definition setLeft (f : Face) (c : N) : Face :=
  mkFace (f_subs f) (mkBC (mkCC c (cellRight (bc (f_conn f)))) (nextL (f_conn f)) (nextR (f_conn f))).
Definition setRight (f : Face) (c : N) : Face :=
  mkFace (f_subs f) (mkBC (mkCC (cellLeft (bc (f_conn f))) c) (nextL (f_conn f)) (nextR (f_conn f))).

(** MeshElements.h:170-181: body of the loop for the face with index [fi]. *)
Definition setupFace (bcs : list (N * N)) (fi : N) (f : Face) : list (N * N) * Face :=
  let '(bcs1, f1) :=
    if isInvalidIndex 64 (cellLeft (bc (f_conn f)))
    then let ci := N.lor (N.of_nat (length bcs)) (BOUNDARY_INDEX 64) in
         (appendBoundaryCell bcs ci fi, setLeft f ci)
    else (bcs, f) in
  if isInvalidIndex 64 (cellRight (bc (f_conn f1)))
  then let ci := N.lor (N.of_nat (length bcs1)) (BOUNDARY_INDEX 64) in
       (appendBoundaryCell bcs1 ci fi, setRight f1 ci)
  else (bcs1, f1).

Fixpoint setupLoop (bcs : list (N * N)) (fi : N) (fs : list Face) : list (N * N) * list Face :=
  match fs with
  | [] => (bcs, [])
  | f :: r =>
      let '(bcs1, f1) := setupFace bcs fi f in
      let '(bcs2, r2) := setupLoop bcs1 (fi + 1) r in
      (bcs2, f1 :: r2)
  end.

(** MeshElements.h:169-183 setupBoundaryCells *)
Definition setupBoundaryCells m : Mesh V :=
  let '(bcs, fs) := setupLoop (m_bcells m) 0 (m_faces m) in
  mkMesh (m_dim m) (m_verts m) (m_mid m) fs (m_cells m) bcs.

End Mesh.

(** Model of MeshIO/MeshWriter/VTKMeshWriter.h (mesh dimensions 2 and 3).

    The text written is the list of its tokens with explicit ends of lines (type [vtok] of [M_VTK]);
    how a coordinate is printed is not modelled. *)
From Coq Require Import String.
From Verif Require Import Base M_Conn M_Mesh M_Apply M_Connections M_Text M_FPMA M_VTK.
Local Open Scope N_scope.
Local Open Scope list_scope.

(** * Common to both writers *)
Section Emit.
Context {C : Type}.
(** VTKMeshWriter.h:30-33 and 194-197 writeHeader; [name]: the tokens of dataName (one line). *)
Definition writeHeader (name : list (vtok C)) : list (vtok C) :=
  [Vw "#"; Vw "vtk"; Vw "DataFile"; Vw "Version"; Vw "2.0"; Vnl] ++ name ++
  [Vnl; Vw "ASCII"; Vnl; Vw "DATASET"; Vw "UNSTRUCTURED_GRID"; Vnl].
(** VTKMeshWriter.h:159-168 and 615-624: the rows of the CELLS section. *)
Definition emitRows (cellVert : list (list N)) : list (vtok C) :=
  flat_map (fun vs => Vn (N.of_nat (length vs)) :: map (fun v => Vn v) vs ++ [Vnl]) cellVert.
(** VTKMeshWriter.h:172-174 and 629-631: TypeConversionTable.at(type) throws for a type not in the table. *)
Definition emitTypes (conv : etype -> option N) (types : list etype) : outcome (list (vtok C)) :=
  cs <- mapM (fun t => match conv t with Some n => Ok n | None => Throw end) types ;;
  Ok (flat_map (fun n => [Vn n; Vnl]) cs).
(** VTKMeshWriter.h:127-130 and 563-568 (there in an int, overflow not modelled). *)
Definition countWritten (cellVert : list (list N)) : N :=
  N.of_nat (list_sum (map (fun vs => S (length vs)) cellVert)).
End Emit.

(** * 2D *)
(** VTKMeshWriter.h:23-28 TypeConversionTable *)
Definition vtkCode2 (t : etype) : option N :=
  match t with LINE => Some 3 | TRIANGLE => Some 5 | QUAD => Some 9 | POLYGON => Some 7 | _ => None end.

(** Vertices of the edge (= face of the planar mesh) [e]: [vertexA; vertexB]. *)
Definition face_ends (F : list Face) (e : N) : outcome (N * N) :=
  f <- vat F e ;;
  match f_subs f with [a; b] => Ok (a, b) | _ => UB end.

(** VTKMeshWriter.h:86-109: the do-while loop of indexCell. [tmp] = tmpEdgeIndex, [last] =
    lastWrittenEdge, [next] = nextVertex, [out] = verticesIndexed. *)
Fixpoint cell_walk (fuel : nat) (F : list Face) (c tmp last next : N) (out : list N) : outcome (list N) :=
  match fuel with
  | O => Diverge
  | S k =>
      s <- (if negb (last =? tmp) then
              ab <- face_ends F tmp ;;
              if snd ab =? next then Ok (tmp, fst ab, out ++ [snd ab])
              else if fst ab =? next then Ok (tmp, snd ab, out ++ [fst ab])
              else Ok (last, next, out)
            else Ok (last, next, out)) ;;
      let '(last1, next1, out1) := s in
      f <- vat F tmp ;;
      tmp1 <- getNextBElem (f_conn f) c ;;
      first <- vat out1 0 ;;
      if next1 =? first then Ok out1 else cell_walk k F c tmp1 last1 next1 out1
  end.

Section Writer2.
Context {C : Type}.
Implicit Type m : Mesh (C * C).

(** VTKMeshWriter.h:67-111 indexCell. The loop's state is (tmp, last, next) and next is an end of last,
    so a run longer than 2 * (number of edges)^2 steps repeats a state and never ends. *)
Definition indexCell m (c : N) : outcome (list N) :=
  e <- vat (m_cells m) c ;;
  f <- vat (m_faces m) e ;;
  ab <- face_ends (m_faces m) e ;;
  let (a, b) := if cellLeft (bc (f_conn f)) =? c then ab else (snd ab, fst ab) in
  let n := length (m_faces m) in
  cell_walk (S (2 * n * n)) (m_faces m) c e e b [a].

(** VTKMeshWriter.h:113-133 indexMesh: the writer's cellVert and totalNumberOfWrittenElements. *)
Definition indexMesh2 m : outcome (list (list N) * N) :=
  cv <- mapM (indexCell m) (seqN (length (m_cells m))) ;;
  Ok (cv, countWritten cv).

(** VTKMeshWriter.h:147-175: the text written from given tables. [zero] is the coordinate printed as
    "0.0" (line 152); [types] is the content of the container cellTypes (its size is not checked). *)
Definition emitVTK2 (zero : C) m (idx : list (list N) * N) (types : list etype) : outcome (list (vtok C)) :=
  ty <- emitTypes vtkCode2 types ;;
  Ok ([Vw "POINTS"; Vn (N.of_nat (length (m_verts m))); Vw "double"; Vnl] ++
      flat_map (fun p => [Vc (fst p); Vc (snd p); Vc zero; Vnl]) (m_verts m) ++ [Vnl] ++
      [Vw "CELLS"; Vn (N.of_nat (length (m_cells m))); Vn (snd idx); Vnl] ++
      emitRows (fst idx) ++ [Vnl] ++
      [Vw "CELL_TYPES"; Vn (N.of_nat (length (m_cells m))); Vnl] ++ ty ++ [Vnl]).

(** VTKMeshWriter.h:135-176 writeToStream when the mesh is indexed (lines 140-145; the cache is modelled
    in [M_Signature]). *)
Definition writeVTK2 (zero : C) m (types : list etype) : outcome (list (vtok C)) :=
  idx <- indexMesh2 m ;;
  emitVTK2 zero m idx types.
End Writer2.

(** * 3D *)
(** VTKMeshWriter.h:186-191 TypeConversionTable *)
Definition vtkCode3 (t : etype) : option N :=
  match t with TETRA => Some 10 | HEXAHEDRON => Some 12 | WEDGE => Some 13 | PYRAMID => Some 14 | _ => None end.

Section Writer3.
Context {V : Type}.
Implicit Type m : Mesh V.
(** The result of edgesOrientation(mesh) (line 422; EdgesOrientation.h:73-88), one list per face. *)
Variable ori : list (list bool).
(** cell.getCenter(), face.getCenter() and the key built from to_string of the coordinates
    (lines 516-518 and 537-539). *)
Variables (ccenter fcenter : N -> V) (key : V -> string).

Definition edges3 m : list (list N) := nth 0 (m_mid m) [].

(** VTKMeshWriter.h:235-274 indexFace; the loop (255-272) is the one of the FPMA writer. *)
Definition indexFace3 m (face cell : N) : outcome (list N) :=
  f <- vat (m_faces m) face ;;
  o <- vat ori face ;;
  o0 <- vidx o 0 ;;
  e0 <- vidx (f_subs f) 0 ;;
  ab <- edge_ends (edges3 m) e0 ;;
  let (s, n) := if (o0 : bool) && (cell =? cellLeft (bc (f_conn f))) then (snd ab, fst ab) else ab in
  index_loop (2 * length (f_subs f) + 2) (edges3 m) (f_subs f) s e0 n [s].

(** VTKMeshWriter.h:299-310: lambdaProc, append unless present. *)
Definition push_new (out : list N) (v : N) : list N :=
  if existsb (N.eqb v) out then out else out ++ [v].

(** VTKMeshWriter.h:288-314 indexPyramid *)
Definition indexPyramid m (cell face : N) : outcome (list N) :=
  base <- indexFace3 m face cell ;;
  vs <- run m 3 3 cell ;;
  Ok (fold_left push_new vs base).

(** VTKMeshWriter.h:344-370: lambdaProc on one edge, [index] the current base vertex. *)
Definition push_opposite m (index : N) (out : list N) (e : N) : outcome (list N) :=
  ab <- edge_ends (edges3 m) e ;;
  let out1 := if fst ab =? index then push_new out (snd ab) else out in
  Ok (if snd ab =? index then push_new out1 (fst ab) else out1).

(** VTKMeshWriter.h:329-381 indexLinearObject *)
Definition indexLinear m (cell face : N) : outcome (list N) :=
  base <- indexFace3 m face cell ;;
  foldM (fun out i =>
           index <- vidx out i ;;
           es <- run m 2 3 cell ;;
           foldM (push_opposite m index) es out)
        (seqN (length base)) base.

(** The faces of a cell, in traversal order, with their number of subelements
    (MeshApply<3,2>, lines 457-464 and 482-489). *)
Definition cell_faces m (cell : N) : outcome (list (N * nat)) :=
  fs <- run m 1 3 cell ;;
  mapM (fun f => fc <- vat (m_faces m) f ;; Ok (f, length (f_subs fc))) fs.
(** VTKMeshWriter.h:455-468: the last face with more than 3 edges; a null pointer is dereferenced when
    there is none. *)
Definition base_pyramid (l : list (N * nat)) : outcome N :=
  match find (fun x => (3 <? snd x)%nat) (rev l) with Some x => Ok (fst x) | None => UB end.
(** VTKMeshWriter.h:479-492: the first face with 3 edges. *)
Definition base_wedge (l : list (N * nat)) : outcome N :=
  match find (fun x => (snd x =? 3)%nat) l with Some x => Ok (fst x) | None => UB end.

(** The writer's state while indexing: emitted cells (vertex list, type), appended vertices, key map,
    backward map (emitted cell, mesh cell), newest first. *)
Record tess := mkTess {
  t_cells : list (list N * etype);
  t_verts : list V;
  t_keys : list (string * N);
  t_back : list (N * N)
}.

(** VTKMeshWriter.h:519-526 and 541-548: the index of the appended vertex for a centre. *)
Definition center_index (nv : nat) (p : V) (t : tess) : N * tess :=
  match map_find (key p) (t_keys t) with
  | Some i => (i, t)
  | None => let i := N.of_nat (length (t_verts t) + nv) in
            (i, mkTess (t_cells t) (t_verts t ++ [p]) ((key p, i) :: t_keys t) (t_back t))
  end.

(** VTKMeshWriter.h:531-554: one tetrahedron per edge of the face. *)
Definition tess_edge m (cell ci f : N) (t : tess) (e : N) : outcome tess :=
  ab <- edge_ends (edges3 m) e ;;
  let (fi, t1) := center_index (length (m_verts m)) (fcenter f) t in
  Ok (mkTess (t_cells t1 ++ [([fst ab; snd ab; fi; ci], TETRA)]) (t_verts t1) (t_keys t1)
             ((N.of_nat (length (t_cells t1)), cell) :: t_back t1)).
Definition tess_face m (cell ci : N) (t : tess) (f : N) : outcome tess :=
  fc <- vat (m_faces m) f ;;
  foldM (tess_edge m cell ci f) (f_subs fc) t.
(** VTKMeshWriter.h:511-559: the default case. The do-while loop over the boundary of the cell is the one
    of MeshApply<3,2> ([run m 1 3]). *)
Definition tess_cell m (cell : N) (t : tess) : outcome tess :=
  let (ci, t1) := center_index (length (m_verts m)) (ccenter cell) t in
  fs <- run m 1 3 cell ;;
  foldM (tess_face m cell ci) fs t1.

Definition push_cell (vs : list N) (ty : etype) (t : tess) : tess :=
  mkTess (t_cells t ++ [(vs, ty)]) (t_verts t) (t_keys t) (t_back t).

(** VTKMeshWriter.h:435-560: the switch on the cell type. *)
Definition index_cell3 m (types : list etype) (t : tess) (cell : N) : outcome tess :=
  ty <- vat types cell ;;
  match ty with
  | TETRA =>
      b <- vat (m_cells m) cell ;; vs <- indexPyramid m cell b ;; Ok (push_cell vs ty t)
  | PYRAMID =>
      l <- cell_faces m cell ;; f <- base_pyramid l ;; vs <- indexPyramid m cell f ;; Ok (push_cell vs ty t)
  | WEDGE =>
      l <- cell_faces m cell ;; f <- base_wedge l ;; vs <- indexLinear m cell f ;; Ok (push_cell vs ty t)
  | HEXAHEDRON =>
      b <- vat (m_cells m) cell ;; vs <- indexLinear m cell b ;; Ok (push_cell vs ty t)
  | _ => tess_cell m cell t
  end.

(** VTKMeshWriter.h:407-570 indexMesh. The connections of line 418 are only used to reserve memory. *)
Definition indexMesh3 m (types : list etype) : outcome tess :=
  conn <- connections m 3 0 ;;
  foldM (index_cell3 m types) (seqN (length (m_cells m))) (mkTess [] [] [] []).
End Writer3.

Section Emit3.
Context {C : Type}.
Implicit Type m : Mesh (C * C * C).
(** VTKMeshWriter.h:596-632: the text written from a given index. *)
Definition emitVTK3 m (t : @tess (C * C * C)) : outcome (list (vtok C)) :=
  let pts := m_verts m ++ t_verts t in
  ty <- emitTypes vtkCode3 (map snd (t_cells t)) ;;
  Ok ([Vw "POINTS"; Vn (N.of_nat (length (m_verts m) + length (t_verts t))); Vw "double"; Vnl] ++
      flat_map (fun p => [Vc (fst (fst p)); Vc (snd (fst p)); Vc (snd p); Vnl]) pts ++ [Vnl] ++
      [Vw "CELLS"; Vn (N.of_nat (length (t_cells t))); Vn (countWritten (map fst (t_cells t))); Vnl] ++
      emitRows (map fst (t_cells t)) ++ [Vnl] ++
      [Vw "CELL_TYPES"; Vn (N.of_nat (length (t_cells t))); Vnl] ++ ty ++ [Vnl]).
(** VTKMeshWriter.h:582-633 writeToStream when the mesh is indexed. *)
Definition writeVTK3 ori ccenter fcenter key m (types : list etype) : outcome (list (vtok C)) :=
  t <- indexMesh3 ori ccenter fcenter key m types ;;
  emitVTK3 m t.
End Emit3.

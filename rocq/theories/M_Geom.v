(** Model of the geometric mesh functions: MeshFunctions/ComputeCenters.h, ComputeNormals.h,
    ComputeMeasures.h, EdgesOrientation.h, CellsDistance.h, ComputeCellsCenterDifference.h, GetCenters.h.
    Coordinates are of type [K] ([Num], see [M_Vec]). The centres stored in the elements (getCenter()) are
    separate tables, because the mesh record has only the topology and the vertices: [cc] cells, [fc] faces,
    [bcc] boundary cells. Indices: size_t. *)
From Verif Require Import Base M_Conn M_Index M_Mesh M_Apply M_Vec.

Section Geom.
Context {K : Num}.
Local Notation vecK := (vec K).
Implicit Type m : Mesh vecK.

Definition two : K := nadd none_ none_.
Definition three : K := nadd two none_.
Definition half : K := ndiv none_ two.      (* 0.5 *)
(** v[i] of a vector (in range: the dimension is fixed at compile time). *)
Definition co (v : vecK) (i : nat) : K := nth i v nzero.

(** getVertexAIndex(), getVertexBIndex() of getEdges().at(e) *)
Definition ends m (e : N) : outcome (N * N) :=
  l <- subs m 1 e ;;
  match l with [a; b] => Ok (a, b) | _ => UB end.
(** The end points of an edge: getVertices().at(...). *)
Definition edge_pts m (e : N) : outcome (vecK * vecK) :=
  ab <- ends m e ;;
  a <- vat (m_verts m) (fst ab) ;;
  b <- vat (m_verts m) (snd ab) ;;
  Ok (a, b).

(** * Centres *)
(** ComputeCenters.h:76-96: edges *)
Definition edge_centers m : outcome (list vecK) :=
  mapM (fun e => ab <- edge_pts m e ;; Ok (vscale (vadd (fst ab) (snd ab)) half)) (seqN (n_elems m 1)).

(** ComputeCenters.h:27-36 and 61-73: Real subElemCnt incremented per call; the container is value
    initialised, so the sum starts from zero. [dim]: number of coordinates. *)
Definition sum_sub (sub : list vecK) (s : vecK * K) (c : N * N) : outcome (vecK * K) :=
  x <- vat sub (snd c) ;; Ok (vadd (fst s) x, nadd (snd s) none_).
Definition center_level (dim : nat) m (k : nat) (sub : list vecK) : outcome (list vecK) :=
  mapM (fun i => calls <- apply1 m k (k - 1) i ;;
                 s <- foldM (sum_sub sub) calls (repeat nzero dim, nzero) ;;
                 Ok (vdiv (fst s) (snd s)))
       (seqN (n_elems m k)).

(** ComputeCenters.h:105-148: faces of a spatial mesh, METHOD_TESSELLATED. *)
Definition tess_sub (m : Mesh vecK) (sub : list vecK) (c0 : vecK) (s : vecK * K) (c : N * N) : outcome (vecK * K) :=
  ab <- edge_pts m (snd c) ;;
  gs <- gramSchmidtN [vsub c0 (fst ab); vsub c0 (snd ab)] ;;
  n0 <- vat (snd gs) 0 ;; n1 <- vat (snd gs) 1 ;;
  x <- vat sub (snd c) ;;
  let surf := nmul (nmul n0 half) n1 in
  Ok (vadd (fst s) (vscale x (nmul surf (ndiv two three))), nadd (snd s) surf).
Definition tess_face_centers m (sub : list vecK) : outcome (list vecK) :=
  c0s <- center_level 3 m 2 sub ;;
  mapM (fun i => c0 <- vat c0s i ;;
                 calls <- apply1 m 2 1 i ;;
                 s <- foldM (tess_sub m sub c0) calls (repeat nzero 3, nzero) ;;
                 Ok (vadd (vdiv c0 three) (vdiv (fst s) (snd s))))
       (seqN (n_elems m 2)).

(** ComputeCenters.h:14-96, 156-165 computeCenters: the tables for dimensions k, k+1, ..., MeshDimension.
    [tess]: METHOD_TESSELLATED (which differs for faces of spatial meshes only). *)
Fixpoint center_levels (tess : bool) (dim : nat) m (steps k : nat) (sub : list vecK) : outcome (list (list vecK)) :=
  match steps with
  | O => Ok []
  | S s =>
      l <- (if tess && (k =? 2) && (m_dim m =? 3) then tess_face_centers m sub else center_level dim m k sub) ;;
      r <- center_levels tess dim m s (S k) l ;;
      Ok (l :: r)
  end.
Definition computeCenters (tess : bool) m : outcome (list (list vecK)) :=
  e <- edge_centers m ;;
  r <- center_levels tess (m_dim m) m (m_dim m - 1) 2 e ;;
  Ok (e :: r).

(** * Normals *)
(** ComputeNormals.h:63-71: one edge of a planar mesh. *)
Definition normal2 (a b : vecK) : vecK :=
  let dif := vsub b a in
  vdiv [co dif 1; nopp (co dif 0)] (normEuclid dif).
Definition computeNormals2 m : outcome (list vecK) :=
  mapM (fun e => ab <- edge_pts m e ;; Ok (normal2 (fst ab) (snd ab))) (seqN (n_elems m 1)).

(** ComputeNormals.h:87-92 (and 29-34, 117-122): the cell whose centre is used and the sign. *)
Definition side_cell (b : BConn) : N * bool :=
  let l := cellLeft (bc b) in
  if isInvalidIndex 64 l || isBoundaryIndex 64 l then (cellRight (bc b), false) else (l, true).
Definition sign_of (s : bool) : K := if s then none_ else nopp none_.

(** ComputeNormals.h:85-109: one face of a spatial mesh, METHOD_DEFAULT. *)
Definition normal3 m (cc fc : list vecK) (f : N) : outcome vecK :=
  face <- vat (m_faces m) f ;;
  let (cell, s) := side_cell (f_conn face) in
  x <- vat cc cell ;;
  e0 <- vidx (f_subs face) 0 ;;
  ab <- edge_pts m e0 ;;
  c <- vidx fc f ;;
  gs <- gramSchmidtN [vsub c (fst ab); vsub c (snd ab); vsub c x] ;;
  n <- vidx (fst gs) 2 ;;
  Ok (scalev (sign_of s) n).
Definition computeNormals3 m cc fc : outcome (list vecK) := mapM (normal3 m cc fc) (seqN (length (m_faces m))).

(** ComputeNormals.h:114-158: METHOD_TESSELLATED. *)
Definition tess_normal_step m (c x : vecK) (s : vecK * K) (call : N * N) : outcome (vecK * K) :=
  ab <- edge_pts m (snd call) ;;
  gs <- gramSchmidtN [vsub c (fst ab); vsub c (snd ab); vsub c x] ;;
  e2 <- vidx (fst gs) 2 ;; n0 <- vidx (snd gs) 0 ;; n1 <- vidx (snd gs) 1 ;;
  Ok (vadd (fst s) (vscale (vscale (vscale e2 half) n0) n1), nadd (snd s) (nmul (nmul half n0) n1)).
Definition normal3_tess m (cc fc : list vecK) (f : N) : outcome vecK :=
  face <- vidx (m_faces m) f ;;
  let (cell, sg) := side_cell (f_conn face) in
  x <- vat cc cell ;;
  c <- vidx fc f ;;
  calls <- apply1 m 2 1 f ;;
  s <- foldM (tess_normal_step m c x) calls (repeat nzero 3, nzero) ;;
  let n := vdiv (fst s) (snd s) in
  Ok (if sg : bool then n else vscale n (nopp none_)).
Definition computeNormals3_tess m cc fc : outcome (list vecK) := mapM (normal3_tess m cc fc) (seqN (length (m_faces m))).

(** * Orientation of edges *)
(** EdgesOrientation.h:13-28 (2D): [a], [b] the edge, [c] the centre of the cell. *)
Definition edgeIsLeft2 (a b c : vecK) : bool :=
  let u := vsub a c in let v := vsub b c in
  ngtb (nsub (nmul (co u 0) (co v 1)) (nmul (co v 0) (co u 1))) nzero.
(** EdgesOrientation.h:30-49 (3D), the loop unrolled by the index arithmetic modulo 3. *)
Definition triple_step (u v n : vecK) (res : K) (i : nat) : K :=
  let ipo := Nat.modulo (i + 1) 3 in let ipt := Nat.modulo (i + 2) 3 in
  nadd res (nsub (nmul (nmul (co u i) (co v ipo)) (co n ipt)) (nmul (nmul (co u ipt) (co v ipo)) (co n i))).
Definition edgeIsLeft3 (a b c n : vecK) : bool :=
  let u := vsub a c in let v := vsub b c in
  ngtb (fold_left (triple_step u v n) [0; 1; 2] nzero) nzero.
(** EdgesOrientation.h:73-88 edgesOrientation *)
Definition edgesOrientation m (cc fc : list vecK) : outcome (list (list bool)) :=
  ns <- computeNormals3 m cc fc ;;
  mapM (fun f => face <- vat (m_faces m) f ;;
                 n <- vidx ns f ;;
                 mapM (fun e => ab <- edge_pts m e ;; c <- vidx fc f ;; Ok (edgeIsLeft3 (fst ab) (snd ab) c n))
                      (f_subs face))
       (seqN (length (m_faces m))).

(** * Measures *)
(** ComputeMeasures.h:103-116: lengths of edges *)
Definition edge_lengths m : outcome (list K) :=
  mapM (fun e => ab <- edge_pts m e ;; Ok (normEuclid (vsub (fst ab) (snd ab)))) (seqN (n_elems m 1)).

(** ComputeMeasures.h:187-198: one cell of a planar mesh with centre [c]; the boundary walk is [ring_walk]. *)
Definition triangle2 (c a b : vecK) : K :=
  let tmp := nsub (nmul (nsub (co c 0) (co a 0)) (nsub (co b 1) (co a 1)))
                  (nmul (nsub (co c 1) (co a 1)) (nsub (co b 0) (co a 0))) in
  nmul half (nabs tmp).
Definition measure2 m (cc : list vecK) (cell : N) : outcome K :=
  c <- vat cc cell ;;
  ts <- ring_walk m cell (fun e => ab <- edge_pts m e ;; Ok (triangle2 c (fst ab) (snd ab))) ;;
  Ok (fold_left nadd ts nzero).
(** ComputeMeasures.h:103-117, 178-202, 281-288 computeMeasures of a planar mesh: lengths, areas. *)
Definition computeMeasures2 m (cc : list vecK) : outcome (list K * list K) :=
  l <- edge_lengths m ;;
  s <- mapM (measure2 m cc) (seqN (length (m_cells m))) ;;
  Ok (l, s).

(** ComputeMeasures.h:213-233: one face of a spatial mesh. *)
Definition face_step m (lens : list K) (c : vecK) (s : K) (e : N) : outcome K :=
  ab <- edge_pts m e ;;
  gs <- gramSchmidtN [vsub (snd ab) (fst ab); vsub c (fst ab)] ;;
  n1 <- vidx (snd gs) 1 ;;
  len <- vat lens e ;;
  Ok (nadd s (nmul (nmul half n1) len)).
Definition face_measure m (lens : list K) (fc : list vecK) (f : N) : outcome K :=
  face <- vat (m_faces m) f ;;
  c <- vidx fc f ;;
  foldM (face_step m lens c) (f_subs face) nzero.
(** ComputeMeasures.h:137-175: one cell of a spatial mesh. *)
Definition cell_term m (fc : list vecK) (fm : list K) (x : vecK) (f : N) : outcome K :=
  face <- vat (m_faces m) f ;;
  e0 <- vidx (f_subs face) 0 ;;
  ab <- edge_pts m e0 ;;
  c <- vat fc f ;;
  gs <- gramSchmidtN [vsub (fst ab) (snd ab); vsub (fst ab) c; vsub (fst ab) x] ;;
  n2 <- vidx (snd gs) 2 ;;
  a <- vat fm f ;;
  Ok (ndiv (nmul n2 a) three).
Definition measure3 m (cc fc : list vecK) (fm : list K) (cell : N) : outcome K :=
  x <- vat cc cell ;;
  ts <- ring_walk m cell (cell_term m fc fm x) ;;
  Ok (fold_left nadd ts nzero).
(** ComputeMeasures.h:103-117, 206-235, 137-175 computeMeasures of a spatial mesh (the method is dropped at
    lines 114 and 232: METHOD_TESSELLATED gives the same code): lengths, areas, volumes. *)
Definition computeMeasures3 m (cc fc : list vecK) : outcome (list K * list K * list K) :=
  l <- edge_lengths m ;;
  fm <- mapM (face_measure m l fc) (seqN (length (m_faces m))) ;;
  v <- mapM (measure3 m cc fc fm) (seqN (length (m_cells m))) ;;
  Ok (l, fm, v).

(** * Cell distances *)
(** CellsDistance.h:16-38 and ComputeCellsCenterDifference.h:17-29, no boundary cells. A face without any
    cell keeps the value initialised entry. *)
Definition diff_plain (dim : nat) (cc : list vecK) (c : vecK) (b : BConn) : outcome vecK :=
  let l := cellLeft (bc b) in let r := cellRight (bc b) in
  if negb (isInvalidIndex 64 l) && negb (isInvalidIndex 64 r)
  then x <- vat cc r ;; y <- vat cc l ;; Ok (vsub x y)
  else if negb (isInvalidIndex 64 l) then y <- vat cc l ;; Ok (vsub c y)
  else if negb (isInvalidIndex 64 r) then y <- vat cc r ;; Ok (vsub c y)
  else Ok (repeat nzero dim).
Definition dist_plain (cc : list vecK) (c : vecK) (b : BConn) : outcome K :=
  let l := cellLeft (bc b) in let r := cellRight (bc b) in
  if negb (isInvalidIndex 64 l) && negb (isInvalidIndex 64 r)
  then x <- vat cc l ;; y <- vat cc r ;; Ok (normEuclid (vsub x y))
  else if negb (isInvalidIndex 64 l) then y <- vat cc l ;; Ok (normEuclid (vsub y c))
  else if negb (isInvalidIndex 64 r) then y <- vat cc r ;; Ok (normEuclid (vsub y c))
  else Ok nzero.
(** CellsDistance.h:42-51, ComputeCellsCenterDifference.h:32-37: the cell or boundary cell of an index. *)
Definition any_center (cc bcc : list vecK) (i : N) : outcome vecK :=
  if isBoundaryIndex 64 i then vat bcc (extractBoundaryIndex 64 i) else vat cc i.

(** ComputeCellsCenterDifference.h:11-45 *)
Definition centerDifference (dim : nat) m (cc fc bcc : list vecK) : outcome (list vecK) :=
  mapM (fun f => face <- vat (m_faces m) f ;;
                 c <- vidx fc f ;;
                 match m_bcells m with
                 | [] => diff_plain dim cc c (f_conn face)
                 | _ => l <- any_center cc bcc (cellLeft (bc (f_conn face))) ;;
                        r <- any_center cc bcc (cellRight (bc (f_conn face))) ;;
                        Ok (vsub r l)
                 end)
       (seqN (length (m_faces m))).
(** CellsDistance.h:11-57 *)
Definition cellsDistance m (cc fc bcc : list vecK) : outcome (list K) :=
  mapM (fun f => face <- vat (m_faces m) f ;;
                 c <- vidx fc f ;;
                 match m_bcells m with
                 | [] => dist_plain cc c (f_conn face)
                 | _ => l <- any_center cc bcc (cellLeft (bc (f_conn face))) ;;
                        r <- any_center cc bcc (cellRight (bc (f_conn face))) ;;
                        Ok (normEuclid (vsub l r))
                 end)
       (seqN (length (m_faces m))).
End Geom.

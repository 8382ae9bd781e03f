(** Model of the FPMA reader and writer (MeshIO/MeshReader/FPMAMeshReader.h,
    MeshIO/MeshWriter/FPMAMeshWriter.h), mesh dimension 3.

    A stream is the list of its whitespace separated tokens. Coordinates are of an abstract type [C]
    (how a floating point number is printed and parsed is not modelled). [ist >> x] on a stream that
    does not start with a token of the right kind leaves an uninitialised variable to be used:
    it is [UB] here. *)
From Coq Require Import String.
From Verif Require Import Base M_Conn M_Mesh M_Connections M_Text.
Local Open Scope N_scope.
Local Open Scope list_scope.

Inductive tok (C : Type) : Type := Tn (n : N) | Tc (c : C).
Arguments Tn {C} n.
Arguments Tc {C} c.

(** The reader's map of constructed edges: std::unordered_map<std::string, IndexType>.
    The newest binding of a key is found first. *)
Definition edge_map := list (string * N).
Fixpoint map_find (k : string) (em : edge_map) : option N :=
  match em with
  | [] => None
  | (k', v) :: r => if String.eqb k k' then Some v else map_find k r
  end.

(** FPMAMeshReader.h:78-97 (the same code as VTKMeshReader.h:346-361): find or create the edge
    joining iA and iB; an edge is [vertexA; vertexB]. *)
Definition get_edge (edges : list (list N)) (em : edge_map) (iA iB : N)
  : N * list (list N) * edge_map :=
  let edgeKey := edge_key iA iB in
  match map_find edgeKey em with
  | Some e => (e, edges, em)
  | None => let e := N.of_nat (length edges) in (e, edges ++ [[iA; iB]], (edgeKey, e) :: em)
  end.

(** MeshElement.h:77-90 and 126-140: addSubelement on a container with [reserve] places
    (0: a std::vector), see [M_Conn.addSubelement]; overflow throws. *)
Definition add_sub (reserve : nat) (l : list N) (e : N) : outcome (list N) :=
  if (reserve =? 0)%nat || (length l <? reserve)%nat then Ok (l ++ [e]) else Throw.

(** std::vector::resize(n): existing elements are kept, new ones are [d]. *)
Definition vresize {A} (n : nat) (d : A) (l : list A) : list A :=
  firstn n l ++ repeat d (n - length l).

(** MeshElement.h:153-173: a default constructed face. *)
Definition newFace : Face := mkFace [] newBC.

Section FPMA.
Context {C : Type}.
Variable reserve : nat.  (* the Reserve parameter of the faces *)

Local Notation Point := (C * C * C)%type.
Implicit Type m : Mesh Point.
Implicit Type ts : list (tok C).

Definition readN ts : outcome (N * list (tok C)) :=
  match ts with Tn n :: r => Ok (n, r) | _ => UB end.
Definition readC ts : outcome (C * list (tok C)) :=
  match ts with Tc c :: r => Ok (c, r) | _ => UB end.

(** [for (i = 0; i < n; i++) { ... }] reading one [A] per iteration. *)
Fixpoint readMany {A} (rd : list (tok C) -> outcome (A * list (tok C))) (n : nat) ts
  : outcome (list A * list (tok C)) :=
  match n with
  | O => Ok ([], ts)
  | S k => a <- rd ts ;; r <- readMany rd k (snd a) ;; Ok (fst a :: fst r, snd r)
  end.

Definition readPoint ts : outcome (Point * list (tok C)) :=
  x <- readC ts ;; y <- readC (snd x) ;; z <- readC (snd y) ;;
  Ok ((fst x, fst y, fst z), snd z).

Definition edges_of m : list (list N) := nth 0 (m_mid m) [].
Definition with_verts m vs : Mesh Point :=
  mkMesh (m_dim m) vs (m_mid m) (m_faces m) (m_cells m) (m_bcells m).
Definition with_faces m es fs : Mesh Point :=
  mkMesh (m_dim m) (m_verts m) [es] fs (m_cells m) (m_bcells m).
Definition with_cells m fs cs : Mesh Point :=
  mkMesh (m_dim m) (m_verts m) (m_mid m) fs cs (m_bcells m).

(** FPMAMeshReader.h:38-52 loadVertices. The vector is resized and then every vertex is overwritten. *)
Definition loadVertices ts m : outcome (Mesh Point * list (tok C)) :=
  n <- readN ts ;;
  vs <- readMany readPoint (N.to_nat (fst n)) (snd n) ;;
  Ok (with_verts m (fst vs), snd vs).

(** FPMAMeshReader.h:76-106: the edges of one polygon, added to the face's subelements [subs]. *)
Fixpoint add_edges (pairs : list (N * N)) (edges : list (list N)) (em : edge_map) (subs : list N)
  : outcome (list (list N) * edge_map * list N) :=
  match pairs with
  | [] => Ok (edges, em, subs)
  | (iA, iB) :: r =>
      let '(e, edges1, em1) := get_edge edges em iA iB in
      subs1 <- add_sub reserve subs e ;;
      add_edges r edges1 em1 subs1
  end.

(** The pairs (vertices.at(j), vertices.at((j+1) % numVert)), j = 0 .. numVert-1. *)
Definition cyc_pairs (vs : list N) : list (N * N) :=
  match vs with [] => [] | v :: r => combine vs (r ++ [v]) end.

(** FPMAMeshReader.h:64-108: the loop over the faces [done ++ todo] of the mesh; [todo] are the
    faces still to be filled (they may already hold subelements when the mesh was not empty). *)
Fixpoint load_faces_loop (todo : list Face) ts (edges : list (list N)) (em : edge_map)
  : outcome (list (list N) * list Face * list (tok C)) :=
  match todo with
  | [] => Ok (edges, [], ts)
  | f :: r =>
      n <- readN ts ;;
      vs <- readMany readN (N.to_nat (fst n)) (snd n) ;;
      a <- add_edges (cyc_pairs (fst vs)) edges em (f_subs f) ;;
      let '(edges1, em1, subs1) := a in
      rest <- load_faces_loop r (snd vs) edges1 em1 ;;
      let '(edges2, fs2, ts2) := rest in
      Ok (edges2, mkFace subs1 (f_conn f) :: fs2, ts2)
  end.

(** FPMAMeshReader.h:56-110 loadFaces *)
Definition loadFaces ts m : outcome (Mesh Point * list (tok C)) :=
  n <- readN ts ;;
  r <- load_faces_loop (vresize (N.to_nat (fst n)) newFace (m_faces m)) (snd n) (edges_of m) [] ;;
  let '(edges, fs, ts') := r in
  Ok (with_faces m edges fs, ts').

(** [mesh.getFaces().at(f).setNextBElem(next, cell)] *)
Definition face_next (fs : list Face) (f next cell : N) : outcome (list Face) :=
  fc <- vat fs f ;;
  vset fs f (mkFace (f_subs fc) (fst (setNextBElem (f_conn fc) next cell))).

(** FPMAMeshReader.h:127-146: the loop over the faces of cell [cell], [left] iterations to go;
    [first]: j = 0. [b] is the cell's boundary element index. *)
Fixpoint load_cell_loop (left : nat) (first : bool) (cell : N) (prev b : N) (fs : list Face) ts
  : outcome (N * list Face * list (tok C)) :=
  match left with
  | O => Ok (b, fs, ts)
  | S k =>
      fi <- readN ts ;;
      let b1 := if first then fst fi else b in
      fs1 <- (if prev =? INVALID then Ok fs else face_next fs prev (fst fi) cell) ;;
      fs2 <- (if (k =? 0)%nat then face_next fs1 (fst fi) b1 cell else Ok fs1) ;;
      load_cell_loop k false cell (fst fi) b1 fs2 (snd fi)
  end.

(** FPMAMeshReader.h:120-149: the loop over the cells [todo], the first of which has index [cell]. *)
Fixpoint load_cells_loop (todo : list N) (cell : N) (fs : list Face) ts
  : outcome (list N * list Face * list (tok C)) :=
  match todo with
  | [] => Ok ([], fs, ts)
  | b :: r =>
      n <- readN ts ;;
      a <- load_cell_loop (N.to_nat (fst n)) true cell INVALID b fs (snd n) ;;
      let '(b1, fs1, ts1) := a in
      rest <- load_cells_loop r (cell + 1) fs1 ts1 ;;
      let '(bs, fs2, ts2) := rest in
      Ok (b1 :: bs, fs2, ts2)
  end.

(** FPMAMeshReader.h:114-151 loadCells; a new cell's boundary element is the invalid index
    (MeshElement.h:245-260). *)
Definition loadCells ts m : outcome (Mesh Point * list (tok C)) :=
  n <- readN ts ;;
  r <- load_cells_loop (vresize (N.to_nat (fst n)) INVALID (m_cells m)) 0 (m_faces m) (snd n) ;;
  let '(bs, fs, ts') := r in
  Ok (with_cells m fs bs, ts').

(** FPMAMeshReader.h:156-169 loadFromStream (the stream is read from its beginning); cell types
    (setupCellTypes) and the signature are not part of the mesh record, see [M_Signature]. *)
Definition loadFPMA ts m : outcome (Mesh Point) :=
  a <- loadVertices ts m ;;
  b <- loadFaces (snd a) (fst a) ;;
  c <- loadCells (snd b) (fst b) ;;
  Ok (fst c).

(** * Writer *)

(** Vertices of an edge: edge.getVertexAIndex(), getVertexBIndex() of getEdges().at(e). *)
Definition edge_ends (edges : list (list N)) (e : N) : outcome (N * N) :=
  l <- vat edges e ;;
  match l with [a; b] => Ok (a, b) | _ => UB end.

(** FPMAMeshWriter.h:62-75: one [for] pass over the subelements. The state is
    (lastWrittenEdge, nextVertex) and the vertices written so far. *)
Fixpoint index_pass (edges : list (list N)) (es : list N) (last next : N) (out : list N)
  : outcome (N * N * list N) :=
  match es with
  | [] => Ok (last, next, out)
  | e :: r =>
      ab <- edge_ends edges e ;;
      if negb (e =? last) then
        if fst ab =? next then index_pass edges r e (snd ab) (out ++ [fst ab])
        else if snd ab =? next then index_pass edges r e (fst ab) (out ++ [snd ab])
        else index_pass edges r last next out
      else index_pass edges r last next out
  end.

(** FPMAMeshWriter.h:60-76: while (startVertex != nextVertex), on fuel. *)
Fixpoint index_loop (fuel : nat) (edges : list (list N)) (es : list N) (start last next : N)
  (out : list N) : outcome (list N) :=
  if start =? next then Ok out
  else match fuel with
       | O => Diverge
       | S k => s <- index_pass edges es last next out ;;
                let '(last1, next1, out1) := s in
                index_loop k edges es start last1 next1 out1
       end.

(** FPMAMeshWriter.h:47-79 indexFace on the edge list [es] of a face ([out] is the entry of faceVert,
    empty after indexMesh's clear). getSubelements()[0] of an empty container is undefined. *)
Definition indexFace (edges : list (list N)) (es : list N) : outcome (list N) :=
  e0 <- vidx es 0 ;;
  ab <- edge_ends edges e0 ;;
  index_loop (2 * length es + 2) edges es (snd ab) e0 (fst ab) [snd ab].

(** FPMAMeshWriter.h:94-108 indexMesh: faceVert and cellFace. *)
Definition indexMeshFPMA m : outcome (list (list N) * list (list N)) :=
  faceVert <- mapM (fun f => indexFace (edges_of m) (f_subs f)) (m_faces m) ;;
  cellFace <- connections_original m 3 2 ;;
  Ok (faceVert, cellFace).

(** FPMAMeshWriter.h:132-162: the tokens written for a mesh with given tables. *)
Definition emitFPMA m (faceVert cellFace : list (list N)) : outcome (list (tok C)) :=
  let count {A} (l : list A) := Tn (N.of_nat (length l)) in
  fs <- mapM (fun f => vat faceVert f) (seqN (length (m_faces m))) ;;
  cs <- mapM (fun c => vat cellFace c) (seqN (length (m_cells m))) ;;
  Ok (count (m_verts m) ::
      flat_map (fun p => let '(x, y, z) := p in [Tc x; Tc y; Tc z]) (m_verts m) ++
      count (m_faces m) :: flat_map (fun l => count l :: map (fun v => Tn v) l) fs ++
      count (m_cells m) :: flat_map (fun l => count l :: map (fun f => Tn f) l) cs ++ [Tn 0]).

(** FPMAMeshWriter.h:121-162 writeToStream on a writer whose index is up to date (lines 124-130;
    the cache is modelled in [M_Signature]). *)
Definition writeFPMA m : outcome (list (tok C)) :=
  idx <- indexMeshFPMA m ;;
  emitFPMA m (fst idx) (snd idx).

End FPMA.

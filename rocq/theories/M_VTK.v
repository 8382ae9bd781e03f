(** Model of MeshIO/MeshReader/VTKMeshReader.h (mesh dimensions 2 and 3).

    A stream is a list of tokens: words, indices, coordinates (abstract type [C]) and ends of lines.
    [ist >> x] skips ends of lines; [ist.ignore(n, '\n')] drops the rest of the line (lines longer than
    the limits 20, 50, 1024 are not modelled). Extraction of a number where there is none is [UB]
    (an uninitialised variable is used). *)
From Coq Require Import String.
From Verif Require Import Base M_Conn M_Mesh M_Text M_FPMA.
Local Open Scope N_scope.
Local Open Scope list_scope.

Inductive vtok (C : Type) : Type := Vw (s : string) | Vn (n : N) | Vc (c : C) | Vnl.
Arguments Vw {C} s.
Arguments Vn {C} n.
Arguments Vc {C} c.
Arguments Vnl {C}.

(** MeshNativeType.h:11-31: element types. [Tdefault] is the value 0 a value-initialised entry of the
    cell type container holds (no enumerator has it). *)
Inductive etype := LINE | TRIANGLE | QUAD | POLYGON
                 | TETRA | HEXAHEDRON | WEDGE | PYRAMID | N_PYRAMID | POLYHEDRON | Tdefault.

Definition vkey_map := list (string * N).

(** One boundary element of a cell under construction: found by its key (then the cell becomes its
    right cell) or created with the given subelements and the cell as its left cell.
    VTKMeshReader.h:97-114 (2D, edges) and 380-394 (3D, faces). In 3D the key is bound after the
    neighbours are linked (line 405) and rebound when found; nothing reads the map in between. *)
Definition get_belem (keyf : list N -> string) (reserve : nat) (c : N) (subs : list N)
  (F : list Face) (em : vkey_map) : outcome (N * list Face * vkey_map) :=
  match map_find (keyf subs) em with
  | Some e => f <- vat F e ;; F1 <- vset F e (setRight f c) ;; Ok (e, F1, em)
  | None =>
      if (reserve =? 0)%nat || (length subs <=? reserve)%nat
      then let e := N.of_nat (length F) in
           Ok (e, F ++ [setLeft (mkFace subs newBC) c], (keyf subs, e) :: em)
      else Throw
  end.

(** The loop over the boundary elements [items] of cell [c] (given by their subelements):
    VTKMeshReader.h:93-127 (2D) and 364-407 (3D). [first]: j = 0; [b]: the cell's boundary element. *)
Fixpoint bnd_loop (keyf : list N -> string) (reserve : nat) (items : list (list N)) (first : bool)
  (c prev b : N) (F : list Face) (em : vkey_map) : outcome (N * list Face * vkey_map) :=
  match items with
  | [] => Ok (b, F, em)
  | subs :: r =>
      g <- get_belem keyf reserve c subs F em ;;
      let '(e, F1, em1) := g in
      F2 <- (if prev =? INVALID then Ok F1 else face_next F1 prev e c) ;;
      let b1 := if first then e else b in
      F3 <- (match r with [] => face_next F2 e b1 c | _ => Ok F2 end) ;;
      bnd_loop keyf reserve r false c e b1 F3 em1
  end.

(** Keys: edge_key of an edge [A; B] (VTKMeshReader.h:96), face_key of a face's edges (369-378). *)
Definition key2 (subs : list N) : string := edge_key (nth 0 subs 0) (nth 1 subs 0).
Definition key3 (subs : list N) : string := face_key subs.

Section Reader.
Context {C : Type}.
Implicit Type ts : list (vtok C).

Fixpoint skip_nl ts : list (vtok C) := match ts with Vnl :: r => skip_nl r | _ => ts end.
(** ist >> std::string: [None] when the next token is not a word, or at the end. *)
Definition vreadW ts : option string * list (vtok C) :=
  match skip_nl ts with
  | Vw s :: r => (Some s, r)
  | _ :: r => (None, r)
  | [] => (None, [])
  end.
Definition vreadN ts : outcome (N * list (vtok C)) :=
  match skip_nl ts with Vn n :: r => Ok (n, r) | _ => UB end.
Definition vreadC ts : outcome (C * list (vtok C)) :=
  match skip_nl ts with Vc c :: r => Ok (c, r) | _ => UB end.
Fixpoint ignore_line ts : list (vtok C) :=
  match ts with [] => [] | Vnl :: r => r | _ :: r => ignore_line r end.

Fixpoint vreadMany {A} (rd : list (vtok C) -> outcome (A * list (vtok C))) (n : nat) ts
  : outcome (list A * list (vtok C)) :=
  match n with
  | O => Ok ([], ts)
  | S k => a <- rd ts ;; r <- vreadMany rd k (snd a) ;; Ok (fst a :: fst r, snd r)
  end.

(** VTKMeshReader.h:85-91 and 329-335: one row of the CELLS section. *)
Definition vreadRow ts : outcome (list N * list (vtok C)) :=
  n <- vreadN ts ;; vreadMany vreadN (N.to_nat (fst n)) (snd n).

(** VTKMeshReader.h:59-72: loadVertices, 2D: two coordinates, the third is dropped. *)
Definition vreadPoint2 ts : outcome ((C * C) * list (vtok C)) :=
  x <- vreadC ts ;; y <- vreadC (snd x) ;; z <- vreadC (snd y) ;; Ok ((fst x, fst y), snd z).
(** VTKMeshReader.h:302-314: loadVertices, 3D. *)
Definition vreadPoint3 ts : outcome ((C * C * C) * list (vtok C)) :=
  x <- vreadC ts ;; y <- vreadC (snd x) ;; z <- vreadC (snd y) ;; Ok ((fst x, fst y, fst z), snd z).
Definition loadPoints {P} (rd : list (vtok C) -> outcome (P * list (vtok C))) ts
  : outcome (list P * list (vtok C)) :=
  n <- vreadN ts ;; vreadMany rd (N.to_nat (fst n)) (ignore_line (snd n)).

(** VTKMeshReader.h:74-130 loadCells 2D: [n] cells to go, the next has index [c]; [old] are the
    boundary element indices held by the (resized) cell vector. A polygon without vertices leaves
    the cell's boundary element unset. *)
Fixpoint cells2_loop (old : list N) (c : N) (F : list Face) (em : vkey_map) ts
  : outcome (list N * list Face * list (vtok C)) :=
  match old with
  | [] => Ok ([], F, ts)
  | b :: r =>
      row <- vreadRow ts ;;
      g <- bnd_loop key2 0 (map (fun p => [fst p; snd p]) (cyc_pairs (fst row))) true c INVALID b F em ;;
      let '(b1, F1, em1) := g in
      rest <- cells2_loop r (c + 1) F1 em1 (snd row) ;;
      let '(bs, F2, ts2) := rest in
      Ok (b1 :: bs, F2, ts2)
  end.
Definition loadCells2 ts (m : Mesh (C * C)) : outcome (Mesh (C * C) * list (vtok C)) :=
  n <- vreadN ts ;;
  r <- cells2_loop (vresize (N.to_nat (fst n)) INVALID (m_cells m)) 0 (m_faces m) [] (ignore_line (snd n)) ;;
  let '(bs, F, ts') := r in
  Ok (mkMesh (m_dim m) (m_verts m) (m_mid m) F bs (m_bcells m), ts').

(** VTKMeshReader.h:35-41 and 203-209: TypeConversionTable. *)
Definition vtkType2 (n : N) : option etype :=
  if n =? 3 then Some LINE else if n =? 5 then Some TRIANGLE else if n =? 8 then Some QUAD
  else if n =? 9 then Some QUAD else if n =? 7 then Some POLYGON else None.
Definition vtkType3 (n : N) : option etype :=
  if n =? 10 then Some TETRA else if n =? 11 then Some HEXAHEDRON else if n =? 12 then Some HEXAHEDRON
  else if n =? 13 then Some WEDGE else if n =? 14 then Some PYRAMID else None.

(** VTKMeshReader.h:132-147 and 411-426 loadCellTypes, on the container [types] resized to the number
    of cells. Lines 144 and 423 construct an exception without throwing it: an unknown code leaves the
    entry as it is (types.at(i) is not even evaluated). *)
Fixpoint types_loop (conv : N -> option etype) (n : nat) (i : N) (types : list etype) ts
  : outcome (list etype * list (vtok C)) :=
  match n with
  | O => Ok (types, ts)
  | S k =>
      t <- vreadN ts ;;
      types1 <- (match conv (fst t) with Some e => vset types i e | None => Ok types end) ;;
      types_loop conv k (i + 1) types1 (snd t)
  end.
Definition loadCellTypes (conv : N -> option etype) (ncells : nat) (old : list etype) ts
  : outcome (list etype * list (vtok C)) :=
  n <- vreadN ts ;;
  types_loop conv (N.to_nat (fst n)) 0 (vresize ncells Tdefault old) (snd n).

Definition is_word (w : option string) (s : string) : bool :=
  match w with Some x => String.eqb x s | None => false end.

(** VTKMeshReader.h:149-191 and 428-471: header and sections. [old] is the reader's cell type
    container before the call. A missing section keyword skips the section. *)
Definition loadVTK {P} (loadV : list (vtok C) -> outcome (list P * list (vtok C)))
  (loadC : list (vtok C) -> Mesh P -> outcome (Mesh P * list (vtok C)))
  (conv : N -> option etype) ts (m : Mesh P) (old : list etype) : outcome (Mesh P * list etype) :=
  let ts1 := ignore_line (ignore_line ts) in
  let (w1, ts2) := vreadW ts1 in
  if negb (is_word w1 "ASCII") then Throw else
  let (w2, ts3) := vreadW ts2 in
  if negb (is_word w2 "DATASET") then Throw else
  let (w3, ts4) := vreadW ts3 in
  if negb (is_word w3 "UNSTRUCTURED_GRID") then Throw else
  let m0 := clear m in
  let (w4, ts5) := vreadW ts4 in
  a <- (if is_word w4 "POINTS"
        then vs <- loadV ts5 ;;
             Ok (mkMesh (m_dim m0) (fst vs) (m_mid m0) (m_faces m0) (m_cells m0) (m_bcells m0), snd vs)
        else Ok (m0, ts5)) ;;
  let (w5, ts6) := vreadW (snd a) in
  b <- (if is_word w5 "CELLS" then loadC ts6 (fst a) else Ok (fst a, ts6)) ;;
  let (w6, ts7) := vreadW (snd b) in
  t <- (if is_word w6 "CELL_TYPES" then loadCellTypes conv (length (m_cells (fst b))) old ts7
        else Ok (old, ts7)) ;;
  Ok (fst b, fst t).

Definition loadVTK2 := @loadVTK (C * C) (loadPoints vreadPoint2) loadCells2 vtkType2.

(** * 3D *)

(** VTKMeshReader.h:214-282: TypeEdgesFaces, by number of vertices: (edges, faces). *)
Definition shape (nv : N) : option (list (N * N) * list (list N)) :=
  if nv =? 4 then Some
    ([(0,1);(1,2);(2,0);(0,3);(1,3);(2,3)],
     [[0;1;2];[0;4;3];[1;5;4];[3;5;2]])
  else if nv =? 8 then Some
    ([(0,1);(1,2);(2,3);(3,0);(0,4);(1,5);(2,6);(3,7);(4,5);(5,6);(6,7);(7,4)],
     [[0;1;2;3];[4;0;5;8];[5;1;6;9];[6;2;7;10];[7;3;4;11];[8;9;10;11]])
  else if nv =? 6 then Some
    ([(0,1);(1,2);(2,0);(0,3);(1,4);(2,5);(3,5);(5,4);(4,3)],
     [[0;2;1];[0;4;8;3];[1;4;7;5];[3;5;6;2];[6;7;8]])
  else if nv =? 5 then Some
    ([(0,1);(1,2);(2,3);(3,0);(0,4);(1,4);(2,4);(3,4)],
     [[0;1;2;3];[0;5;4];[1;6;5];[2;7;6];[3;4;7]])
  else None.

(** VTKMeshReader.h:342-362: the edges of one cell, found or created. *)
Fixpoint shape_edges (order : list (N * N)) (vertices : list N) (edges : list (list N)) (em : edge_map)
  : outcome (list N * list (list N) * edge_map) :=
  match order with
  | [] => Ok ([], edges, em)
  | (p, q) :: r =>
      iA <- vat vertices p ;; iB <- vat vertices q ;;
      let '(e, edges1, em1) := get_edge edges em iA iB in
      rest <- shape_edges r vertices edges1 em1 ;;
      let '(es, edges2, em2) := rest in
      Ok (e :: es, edges2, em2)
  end.

(** VTKMeshReader.h:316-409 loadCells 3D; an unsupported number of vertices makes
    TypeEdgesFaces.at throw (lines 339-340). *)
Fixpoint cells3_loop (reserve : nat) (old : list N) (c : N) (edges : list (list N)) (eem : edge_map)
  (F : list Face) (fem : vkey_map) ts
  : outcome (list N * list (list N) * list Face * list (vtok C)) :=
  match old with
  | [] => Ok ([], edges, F, ts)
  | b :: r =>
      row <- vreadRow ts ;;
      match shape (N.of_nat (length (fst row))) with
      | None => Throw
      | Some (eo, fo) =>
          a <- shape_edges eo (fst row) edges eem ;;
          let '(eidx, edges1, eem1) := a in
          items <- mapM (fun f => mapM (fun k => vat eidx k) f) fo ;;
          g <- bnd_loop key3 reserve items true c INVALID b F fem ;;
          let '(b1, F1, fem1) := g in
          rest <- cells3_loop reserve r (c + 1) edges1 eem1 F1 fem1 (snd row) ;;
          let '(bs, edges2, F2, ts2) := rest in
          Ok (b1 :: bs, edges2, F2, ts2)
      end
  end.
Definition loadCells3 (reserve : nat) ts (m : Mesh (C * C * C))
  : outcome (Mesh (C * C * C) * list (vtok C)) :=
  n <- vreadN ts ;;
  r <- cells3_loop reserve (vresize (N.to_nat (fst n)) INVALID (m_cells m)) 0 (nth 0 (m_mid m) []) []
         (m_faces m) [] (ignore_line (snd n)) ;;
  let '(bs, edges, F, ts') := r in
  Ok (mkMesh (m_dim m) (m_verts m) [edges] F bs (m_bcells m), ts').

Definition loadVTK3 (reserve : nat) := @loadVTK (C * C * C) (loadPoints vreadPoint3) (loadCells3 reserve) vtkType3.

End Reader.

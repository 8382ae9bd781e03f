(** The mesh readers and writers on characters. The readers are those of [M_FPMA] and [M_VTK] with the stream operations
    made explicit: first over arbitrary operations ([ops]), then on characters ([M_Stream]). Unlike the token models these
    say what happens when an extraction fails: a variable without initial value is then used uninitialised ([UB]), one
    with an initial value keeps it. *)
From Coq Require Import String Ascii QArith.
From Verif Require Import Base M_Conn M_Mesh M_Connections M_Text M_Print M_Stream M_FPMA M_VTK M_VTKWrite.
Local Open Scope N_scope.
Local Open Scope list_scope.

(** Stream operations on streams of type [S]: extraction of an index ([None]: into an uninitialised variable), of a
    coordinate (into a variable with the given value), of an int (into a variable that is 0), of a word (into a string with
    the given content), and ignore(n, '\n'). *)
Record ops (S C : Type) := mkOps {
  rdN : option N -> S -> outcome (N * S);
  rdC : C -> S -> outcome (C * S);
  rdI : S -> outcome (Z * S);
  rdW : text -> S -> text * S;
  ign : nat -> S -> S
}.
Arguments rdN {S C}. Arguments rdC {S C}. Arguments rdI {S C}. Arguments rdW {S C}. Arguments ign {S C}.

Fixpoint text_eqb (a b : text) : bool :=
  match a, b with
  | [], [] => true
  | x :: a', y :: b' => Ascii.eqb x y && text_eqb a' b'
  | _, _ => false
  end.

Section Readers.
Context {S C : Type}.
Variable o : ops S C.
Variable zero : C.        (* a coordinate of a new vertex (MeshElement.h:185: Vertex v = {}) *)

(** reading n indices into a vector of n zeros *)
Fixpoint rdRow (n : nat) (s : S) : outcome (list N * S) :=
  match n with
  | O => Ok ([], s)
  | Datatypes.S k => a <- rdN o (Some 0) s ;; r <- rdRow k (snd a) ;; Ok (fst a :: fst r, snd r)
  end.
(** overwriting the coordinates of the given points *)
Fixpoint rdPoints3 (old : list (C * C * C)) (s : S) : outcome (list (C * C * C) * S) :=
  match old with
  | [] => Ok ([], s)
  | p :: r =>
      x <- rdC o (fst (fst p)) s ;; y <- rdC o (snd (fst p)) (snd x) ;; z <- rdC o (snd p) (snd y) ;;
      q <- rdPoints3 r (snd z) ;; Ok ((fst x, fst y, fst z) :: fst q, snd q)
  end.
(** VTKMeshReader.h:60-72: [d]: the variable dummy, which keeps its value from point to point. *)
Fixpoint rdPoints2 (d : C) (old : list (C * C)) (s : S) : outcome (list (C * C) * S) :=
  match old with
  | [] => Ok ([], s)
  | p :: r =>
      x <- rdC o (fst p) s ;; y <- rdC o (snd p) (snd x) ;; z <- rdC o d (snd y) ;;
      q <- rdPoints2 (fst z) r (snd z) ;; Ok ((fst x, fst y) :: fst q, snd q)
  end.

(** * FPMA *)
Variable reserve : nat.
Local Notation Point := (C * C * C)%type.
(** FPMAMeshReader.h:38-52 loadVertices *)
Definition xVertices (s : S) (m : Mesh Point) : outcome (Mesh Point * S) :=
  n <- rdN o None s ;;
  vs <- rdPoints3 (vresize (N.to_nat (fst n)) (zero, zero, zero) (m_verts m)) (snd n) ;;
  Ok (with_verts m (fst vs), snd vs).
(** FPMAMeshReader.h:64-108 *)
Fixpoint xFacesLoop (todo : list Face) (s : S) (edges : list (list N)) (em : edge_map)
  : outcome (list (list N) * list Face * S) :=
  match todo with
  | [] => Ok (edges, [], s)
  | f :: r =>
      n <- rdN o None s ;;
      vs <- rdRow (N.to_nat (fst n)) (snd n) ;;
      a <- add_edges reserve (cyc_pairs (fst vs)) edges em (f_subs f) ;;
      let '(edges1, em1, subs1) := a in
      rest <- xFacesLoop r (snd vs) edges1 em1 ;;
      let '(edges2, fs2, s2) := rest in
      Ok (edges2, mkFace subs1 (f_conn f) :: fs2, s2)
  end.
(** FPMAMeshReader.h:56-110 loadFaces *)
Definition xFaces (s : S) (m : Mesh Point) : outcome (Mesh Point * S) :=
  n <- rdN o None s ;;
  r <- xFacesLoop (vresize (N.to_nat (fst n)) newFace (m_faces m)) (snd n) (edges_of m) [] ;;
  let '(edges, fs, s') := r in
  Ok (with_faces m edges fs, s').
(** FPMAMeshReader.h:127-146 *)
Fixpoint xCellLoop (left : nat) (first : bool) (cell : N) (prev b : N) (fs : list Face) (s : S)
  : outcome (N * list Face * S) :=
  match left with
  | O => Ok (b, fs, s)
  | Datatypes.S k =>
      fi <- rdN o None s ;;
      let b1 := if first then fst fi else b in
      fs1 <- (if prev =? INVALID then Ok fs else face_next fs prev (fst fi) cell) ;;
      fs2 <- (if (k =? 0)%nat then face_next fs1 (fst fi) b1 cell else Ok fs1) ;;
      xCellLoop k false cell (fst fi) b1 fs2 (snd fi)
  end.
(** FPMAMeshReader.h:120-149 *)
Fixpoint xCellsLoop (todo : list N) (cell : N) (fs : list Face) (s : S) : outcome (list N * list Face * S) :=
  match todo with
  | [] => Ok ([], fs, s)
  | b :: r =>
      n <- rdN o None s ;;
      a <- xCellLoop (N.to_nat (fst n)) true cell INVALID b fs (snd n) ;;
      let '(b1, fs1, s1) := a in
      rest <- xCellsLoop r (cell + 1) fs1 s1 ;;
      let '(bs, fs2, s2) := rest in
      Ok (b1 :: bs, fs2, s2)
  end.
(** FPMAMeshReader.h:114-151 loadCells *)
Definition xCells (s : S) (m : Mesh Point) : outcome (Mesh Point * S) :=
  n <- rdN o None s ;;
  r <- xCellsLoop (vresize (N.to_nat (fst n)) INVALID (m_cells m)) 0 (m_faces m) (snd n) ;;
  let '(bs, fs, s') := r in
  Ok (with_cells m fs bs, s').
(** FPMAMeshReader.h:156-169 loadFromStream *)
Definition xFPMA (s : S) (m : Mesh Point) : outcome (Mesh Point) :=
  a <- xVertices s m ;; b <- xFaces (snd a) (fst a) ;; c <- xCells (snd b) (fst b) ;; Ok (fst c).

(** * VTK *)
(** VTKMeshReader.h:59-72 and 302-314 loadVertices *)
Definition xPoints2 (s : S) (old : list (C * C)) : outcome (list (C * C) * S) :=
  n <- rdN o None s ;; rdPoints2 zero (vresize (N.to_nat (fst n)) (zero, zero) old) (ign o 20 (snd n)).
Definition xPoints3 (s : S) (old : list Point) : outcome (list Point * S) :=
  n <- rdN o None s ;; rdPoints3 (vresize (N.to_nat (fst n)) (zero, zero, zero) old) (ign o 20 (snd n)).
(** VTKMeshReader.h:83-91 and 326-335 *)
Definition xRow (s : S) : outcome (list N * S) := n <- rdN o None s ;; rdRow (N.to_nat (fst n)) (snd n).
(** VTKMeshReader.h:74-130 loadCells 2D *)
Fixpoint xCells2Loop (old : list N) (c : N) (F : list Face) (em : vkey_map) (s : S) : outcome (list N * list Face * S) :=
  match old with
  | [] => Ok ([], F, s)
  | b :: r =>
      row <- xRow s ;;
      g <- bnd_loop key2 0 (map (fun p => [fst p; snd p]) (cyc_pairs (fst row))) true c INVALID b F em ;;
      let '(b1, F1, em1) := g in
      rest <- xCells2Loop r (c + 1) F1 em1 (snd row) ;;
      let '(bs, F2, s2) := rest in
      Ok (b1 :: bs, F2, s2)
  end.
Definition xCells2 (s : S) (m : Mesh (C * C)) : outcome (Mesh (C * C) * S) :=
  n <- rdN o None s ;;
  r <- xCells2Loop (vresize (N.to_nat (fst n)) INVALID (m_cells m)) 0 (m_faces m) [] (ign o 50 (snd n)) ;;
  let '(bs, F, s') := r in
  Ok (mkMesh (m_dim m) (m_verts m) (m_mid m) F bs (m_bcells m), s').
(** VTKMeshReader.h:316-409 loadCells 3D *)
Fixpoint xCells3Loop (old : list N) (c : N) (edges : list (list N)) (eem : edge_map) (F : list Face) (fem : vkey_map) (s : S)
  : outcome (list N * list (list N) * list Face * S) :=
  match old with
  | [] => Ok ([], edges, F, s)
  | b :: r =>
      row <- xRow s ;;
      match shape (N.of_nat (length (fst row))) with
      | None => Throw
      | Some (eo, fo) =>
          a <- shape_edges eo (fst row) edges eem ;;
          let '(eidx, edges1, eem1) := a in
          items <- mapM (fun f => mapM (fun k => vat eidx k) f) fo ;;
          g <- bnd_loop key3 reserve items true c INVALID b F fem ;;
          let '(b1, F1, fem1) := g in
          rest <- xCells3Loop r (c + 1) edges1 eem1 F1 fem1 (snd row) ;;
          let '(bs, edges2, F2, s2) := rest in
          Ok (b1 :: bs, edges2, F2, s2)
      end
  end.
Definition xCells3 (s : S) (m : Mesh Point) : outcome (Mesh Point * S) :=
  n <- rdN o None s ;;
  r <- xCells3Loop (vresize (N.to_nat (fst n)) INVALID (m_cells m)) 0 (nth 0 (m_mid m) []) [] (m_faces m) [] (ign o 50 (snd n)) ;;
  let '(bs, edges, F, s') := r in
  Ok (mkMesh (m_dim m) (m_verts m) [edges] F bs (m_bcells m), s').
(** VTKMeshReader.h:132-147 and 411-426 loadCellTypes; vtkType is an int that is 0 before. *)
Definition convZ (conv : N -> option etype) (z : Z) : option etype := if (z <? 0)%Z then None else conv (Z.to_N z).
Fixpoint xTypesLoop (conv : N -> option etype) (n : nat) (i : N) (types : list etype) (s : S) : outcome (list etype * S) :=
  match n with
  | O => Ok (types, s)
  | Datatypes.S k =>
      t <- rdI o s ;;
      types1 <- (match convZ conv (fst t) with Some e => vset types i e | None => Ok types end) ;;
      xTypesLoop conv k (i + 1) types1 (snd t)
  end.
Definition xTypes (conv : N -> option etype) (ncells : nat) (old : list etype) (s : S) : outcome (list etype * S) :=
  n <- rdN o None s ;; xTypesLoop conv (N.to_nat (fst n)) 0 (vresize ncells Tdefault old) (snd n).
(** VTKMeshReader.h:149-191 and 428-471 loadFromStream: one std::string buf for all keywords. *)
Definition xVTK {P} (loadV : S -> list P -> outcome (list P * S)) (loadC : S -> Mesh P -> outcome (Mesh P * S))
  (conv : N -> option etype) (s : S) (m : Mesh P) (old : list etype) : outcome (Mesh P * list etype) :=
  let s1 := ign o 1024 (ign o 1024 s) in
  let (b1, s2) := rdW o [] s1 in
  if negb (text_eqb b1 (str "ASCII")) then Throw else
  let (b2, s3) := rdW o b1 s2 in
  if negb (text_eqb b2 (str "DATASET")) then Throw else
  let (b3, s4) := rdW o b2 s3 in
  if negb (text_eqb b3 (str "UNSTRUCTURED_GRID")) then Throw else
  let m0 := clear m in
  let (b4, s5) := rdW o b3 s4 in
  a <- (if text_eqb b4 (str "POINTS")
        then vs <- loadV s5 (m_verts m0) ;;
             Ok (mkMesh (m_dim m0) (fst vs) (m_mid m0) (m_faces m0) (m_cells m0) (m_bcells m0), snd vs)
        else Ok (m0, s5)) ;;
  let (b5, s6) := rdW o b4 (snd a) in
  b <- (if text_eqb b5 (str "CELLS") then loadC s6 (fst a) else Ok (fst a, s6)) ;;
  let (b6, s7) := rdW o b5 (snd b) in
  t <- (if text_eqb b6 (str "CELL_TYPES") then xTypes conv (length (m_cells (fst b))) old s7 else Ok (old, s7)) ;;
  Ok (fst b, fst t).
Definition xVTK2 := @xVTK (C * C) xPoints2 xCells2 vtkType2.
Definition xVTK3 := @xVTK Point xPoints3 xCells3 vtkType3.
End Readers.

(** * On characters *)
(** A coordinate type: the exact value of a number, and the number nearest to a decimal value (what strtod returns). *)
Record fp (C : Type) := mkFp { val : C -> Q; near : Q -> C }.
Arguments val {C}. Arguments near {C}.

Section Chars.
Context {C : Type}.
Variable K : fp C.
Definition charOps : ops ist C := mkOps ist C
  (fun d i => match getN i with
              | (Some n, i') => Ok (n, i')
              | (None, i') => match d with Some n => Ok (n, i') | None => UB end
              end)
  (fun c i => match getDec i with (Some q, i') => Ok (near K q, i') | (None, i') => Ok (c, i') end)
  (fun i => match getInt i with (Some z, i') => Ok (z, i') | (None, i') => Ok (0%Z, i') end)
  (fun b i => match getWord i with (Some w, i') => (w, i') | (None, i') => (b, i') end)
  ignore.
Definition fileOf (s : text) : ist := mkI s false.
Definition readFPMA (reserve : nat) (s : text) (m : Mesh (C * C * C)) : outcome (Mesh (C * C * C)) :=
  xFPMA charOps (near K 0) reserve (fileOf s) m.
Definition readVTK2 (s : text) (m : Mesh (C * C)) (old : list etype) := xVTK2 charOps (near K 0) (fileOf s) m old.
Definition readVTK3 (reserve : nat) (s : text) (m : Mesh (C * C * C)) (old : list etype) :=
  xVTK3 charOps (near K 0) reserve (fileOf s) m old.

(** ost << c *)
Definition putC (c : C) : text := putQ (val K c).
Definition count {A} (l : list A) : text := putN (N.of_nat (length l)).
(** FPMAMeshWriter.h:135-137, VTKMeshWriter.h:600-607 *)
Definition putPoint3 (p : C * C * C) : text :=
  putC (fst (fst p)) ++ [blank] ++ putC (snd (fst p)) ++ [blank] ++ putC (snd p) ++ [nl].
(** FPMAMeshWriter.h:143-149 and 153-159: a blank after every number. *)
Definition putList (l : list N) : text := count l ++ [blank] ++ flat_map (fun v => putN v ++ [blank]) l ++ [nl].
(** FPMAMeshWriter.h:132-162 *)
Definition emitFPMAtext (m : Mesh (C * C * C)) (faceVert cellFace : list (list N)) : outcome text :=
  fs <- mapM (fun f => vat faceVert f) (seqN (length (m_faces m))) ;;
  cs <- mapM (fun c => vat cellFace c) (seqN (length (m_cells m))) ;;
  Ok (count (m_verts m) ++ [nl] ++ flat_map putPoint3 (m_verts m) ++ [nl] ++
      count (m_faces m) ++ [nl] ++ flat_map putList fs ++
      count (m_cells m) ++ [nl] ++ flat_map putList cs ++ str "0").
(** FPMAMeshWriter.h:121-162 writeToStream on a writer whose index is up to date *)
Definition writeFPMAtext (m : Mesh (C * C * C)) : outcome text :=
  idx <- indexMeshFPMA m ;; emitFPMAtext m (fst idx) (snd idx).

(** VTKMeshWriter.h:30-33 and 194-197 writeHeader *)
Definition headerText (name : text) : text :=
  str "# vtk DataFile Version 2.0" ++ [nl] ++ name ++ [nl] ++ str "ASCII" ++ [nl] ++ str "DATASET UNSTRUCTURED_GRID" ++ [nl].
(** VTKMeshWriter.h:151-153: "x y 0.0\n" *)
Definition putPoint2 (p : C * C) : text := putC (fst p) ++ [blank] ++ putC (snd p) ++ str " 0.0" ++ [nl].
(** VTKMeshWriter.h:159-168 and 615-624: a blank between the numbers *)
Fixpoint join (l : list N) : text :=
  match l with [] => [] | [v] => putN v | v :: r => putN v ++ [blank] ++ join r end.
Definition putRow (l : list N) : text := count l ++ [blank] ++ join l ++ [nl].
(** VTKMeshWriter.h:158-174 and 611-631, the parts common to both dimensions: cells, types. [total]:
    totalNumberOfWrittenElements *)
Definition typesText (conv : etype -> option N) (types : list etype) : outcome text :=
  cs <- mapM (fun t => match conv t with Some n => Ok n | None => Throw end) types ;;
  Ok (flat_map (fun n => putN n ++ [nl]) cs).
Definition cellsText (ncells : N) (rows : list (list N)) (total : N) (ntypes : N) (ty : text) : text :=
  str "CELLS " ++ putN ncells ++ [blank] ++ putN total ++ [nl] ++ flat_map putRow rows ++ [nl] ++
  str "CELL_TYPES " ++ putN ntypes ++ [nl] ++ ty ++ [nl].
(** VTKMeshWriter.h:147-176 *)
Definition emitVTK2text (m : Mesh (C * C)) (idx : list (list N) * N) (types : list etype) : outcome text :=
  ty <- typesText vtkCode2 types ;;
  Ok (str "POINTS " ++ count (m_verts m) ++ str " double" ++ [nl] ++ flat_map putPoint2 (m_verts m) ++ [nl] ++
      cellsText (N.of_nat (length (m_cells m))) (fst idx) (snd idx) (N.of_nat (length (m_cells m))) ty).
Definition writeVTK2text (m : Mesh (C * C)) (types : list etype) : outcome text :=
  idx <- indexMesh2 m ;; emitVTK2text m idx types.
(** VTKMeshWriter.h:596-632 *)
Definition emitVTK3text (m : Mesh (C * C * C)) (t : @tess (C * C * C)) : outcome text :=
  ty <- typesText vtkCode3 (map snd (t_cells t)) ;;
  let rows := map fst (t_cells t) in
  Ok (str "POINTS " ++ putN (N.of_nat (length (m_verts m) + length (t_verts t))) ++ str " double" ++ [nl] ++
      flat_map putPoint3 (m_verts m) ++ flat_map putPoint3 (t_verts t) ++ [nl] ++
      cellsText (N.of_nat (length (t_cells t))) rows (countWritten rows) (N.of_nat (length (t_cells t))) ty).
(** VTKMeshWriter.h:516-518 and 537-539: the key of a centre, to_string of its coordinates joined by ';'. *)
Definition centerKey (p : C * C * C) : string :=
  string_of_list_ascii (putFixed (val K (fst (fst p))) ++ str ";" ++ putFixed (val K (snd (fst p))) ++ str ";" ++ putFixed (val K (snd p))).
Definition writeVTK3text ori ccenter fcenter (m : Mesh (C * C * C)) (types : list etype) : outcome text :=
  t <- indexMesh3 ori ccenter fcenter centerKey m types ;; emitVTK3text m t.
End Chars.

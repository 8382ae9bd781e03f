(** Model of MeshDataContainer/MeshDataIO/VTKMeshDataWriter.h and VTKMeshDataReader.h.

    The text is a list of tokens ([vtok] of [M_VTK]); a word token contains no white space. A column is the
    list of the values of one traited member over the cells of the mesh (getValue<Index> of every cell), a
    scalar or a list of components. The overloads for a single DataContainer (VTKMeshDataWriter.h:224 and
    VTKMeshDataReader.h:149) call functions that do not exist and cannot be instantiated, the recursion over
    several containers (VTKMeshDataReader.h:184) likewise; the overloads for MeshDataContainer with one
    container mapped to the cells are modelled. *)
From Coq Require Import String Ascii.
From Verif Require Import Base M_Conn M_Mesh M_Text M_FPMA M_VTK.
Local Open Scope string_scope.
Local Open Scope list_scope.
Local Open Scope N_scope.

(** [rangeN a n] = a, a+1, ..., a+n-1 *)
Definition rangeN (a : N) (n : nat) : list N := map (fun i => a + i) (seqN n).

(** * The writer *)
(** VTKMeshDataWriter.h:110-131 (and 63-92 with the printing of a vector instead of a scalar): the order in
    which the values of the cells are written. [back]: writer.backwardCellIndexMapping in increasing key
    order (it is a std::map). The inner loop of lines 115-119 runs key.first - localIndex times. *)
Fixpoint cursor {A} (data : list A) (back : list (N * N)) (real loc : N) : outcome (list A) :=
  match back with
  | [] => mapM (vat data) (rangeN real (length data - N.to_nat real))
  | (k, c) :: r =>
      pre <- mapM (vat data) (rangeN real (N.to_nat (k - loc))) ;;
      v <- vat data c ;;
      let real1 := match r with
                   | [] => c + 1
                   | (_, c') :: _ => if c =? c' then c else c + 1
                   end in
      rest <- cursor data r real1 (N.max loc k + 1) ;;
      Ok (pre ++ v :: rest)
  end.

Inductive coldata (C : Type) := Sc (vals : list C) | Ve (vals : list (list C)).
Arguments Sc {C} vals.
Arguments Ve {C} vals.

Section Write.
Context {C : Type}.
Variable zero : C.

(** VTKMeshDataWriter.h:108 and 176 *)
Definition scalar_head (name : list string) : list (vtok C) :=
  Vw "SCALARS" :: map Vw name ++ [Vw "double"; Vn 1; Vnl; Vw "LOOKUP_TABLE"; Vw "default"; Vnl].
(** VTKMeshDataWriter.h:55-60 and 149-154; [size] components in a mesh of dimension [dim]. *)
Definition vector_head (dim size : nat) (name : list string) : list (vtok C) :=
  (if (size =? dim)%nat then [Vw "VECTORS"] else if (size =? dim * dim)%nat then [Vw "TENZORS"] else []) ++
  map Vw name ++ [Vw "double"; Vnl].
(** Lines 69-71: the first [size] components of a value. *)
Definition comps (size : nat) (v : list C) : outcome (list (vtok C)) :=
  l <- mapM (vidx v) (seqN size) ;; Ok (map Vc l).

(** VTKMeshDataWriter.h:49-93 and 101-132, then the end of line of line 198. *)
Definition writeColumn3 (back : list (N * N)) (name : list string) (d : coldata C) : outcome (list (vtok C)) :=
  match d with
  | Sc vals => vs <- cursor vals back 0 0 ;; Ok (scalar_head name ++ map Vc vs ++ [Vnl])
  | Ve vals =>
      v0 <- vat vals 0 ;;
      vs <- cursor vals back 0 0 ;;
      ts <- mapM (comps (length v0)) vs ;;
      Ok (vector_head 3 (length v0) name ++ List.concat ts ++ [Vnl])
  end.
(** VTKMeshDataWriter.h:143-162 and 170-183, then line 198. *)
Definition writeColumn2 (name : list string) (d : coldata C) : outcome (list (vtok C)) :=
  match d with
  | Sc vals => Ok (scalar_head name ++ map Vc vals ++ [Vnl])
  | Ve vals =>
      v0 <- vat vals 0 ;;
      ts <- mapM (fun v => t <- comps (length v0) v ;; Ok (t ++ [Vc zero])) vals ;;
      Ok (vector_head 2 (length v0) name ++ List.concat ts ++ [Vnl])
  end.
(** VTKMeshDataWriter.h:335-342 with 311-326: one call of writeColumn per traited member, in order.
    [ncells] = writer.getNumberOfCells(). *)
Definition writeData (wc : list string -> coldata C -> outcome (list (vtok C))) (ncells : N)
  (cols : list (list string * coldata C)) : outcome (list (vtok C)) :=
  ts <- mapM (fun nc => wc (fst nc) (snd nc)) cols ;;
  Ok ([Vw "CELL_DATA"; Vn ncells; Vnl] ++ List.concat ts).
End Write.

(** * The reader *)
(** [line.find(s) != npos] for a space free [s]: some word of the line contains it. *)
Fixpoint containsb (s w : string) : bool :=
  prefix s w || match w with EmptyString => false | String _ r => containsb s r end.
Definition word_has {C} (s : string) (t : vtok C) : bool := match t with Vw w => containsb s w | _ => false end.
Definition line_has {C} (s : string) (l : list (vtok C)) : bool := existsb (word_has s) l.

Fixpoint drop_chars (n : nat) (w : string) : string :=
  match n, w with S k, String _ r => drop_chars k r | _, _ => w end.
(** VTKMeshDataReader.h:131-133: ignore(9, ' '), then the next word. Only words can be names here: a number
    read as a name is not modelled (empty name). *)
Definition line_name {C} (l : list (vtok C)) : string :=
  match l with
  | [] => ""
  | t :: r =>
      let second := match r with Vw w :: _ => w | _ => "" end in
      match t with
      | Vw w => if (String.length w <=? 9)%nat then second else drop_chars 9 w
      | _ => second
      end
  end.

Section Read.
Context {C : Type}.
Variable zero : C.
Definition dpos := list (string * list (vtok C)).
Fixpoint dfind (n : string) (m : dpos) : option (list (vtok C)) :=
  match m with [] => None | (k, p) :: r => if String.eqb n k then Some p else dfind n r end.

(** The first line of a stream and what follows it. *)
Fixpoint split_line (ts : list (vtok C)) : list (vtok C) * list (vtok C) :=
  match ts with
  | [] => ([], [])
  | Vnl :: r => ([], r)
  | t :: r => let (a, b) := split_line r in (t :: a, b)
  end.

(** VTKMeshDataReader.h:113-146 indexData. A position is the rest of the stream from there. map::insert
    keeps the first entry of a name; here [dfind] takes the first one, entries are listed in file order.
    Every iteration consumes a token, so the length of the stream bounds their number. *)
Fixpoint indexData (fuel : nat) (ts : list (vtok C)) : dpos :=
  match fuel, ts with
  | _, [] => []
  | O, _ => []
  | S k, _ =>
      let (l, r) := split_line ts in
      if line_has "SCALARS" l then let r' := snd (split_line r) in (line_name l, r') :: indexData k r'
      else if line_has "VECTORS" l then (line_name l, r) :: indexData k r
      else indexData k r
  end.

(** The state of the stream: [None] once an extraction failed (failbit; seekg then does nothing). *)
Definition istate := option (list (vtok C)).

(** [ist >> value] where value holds [prev] ([None]: uninitialised): a failing extraction stores zero, an
    extraction from a failed stream leaves the variable. An index token read as a value is not modelled. *)
Definition extract (st : istate) (prev : option C) : outcome (option C * istate) :=
  match st with
  | None => Ok (prev, None)
  | Some ts =>
      match skip_nl ts with
      | Vc c :: r => Ok (Some c, Some r)
      | Vn _ :: _ => UB
      | _ => Ok (Some zero, None)
      end
  end.
(** Reading an uninitialised variable is [UB]. *)
Definition use {A} (v : option A) : outcome A := match v with Some a => Ok a | None => UB end.

(** VTKMeshDataReader.h:86-91: a scalar column of [n] cells. *)
Fixpoint readScalars (n : nat) (st : istate) (prev : option C) : outcome (list C * istate) :=
  match n with
  | O => Ok ([], st)
  | S k =>
      x <- extract st prev ;;
      v <- use (fst x) ;;
      r <- readScalars k (snd x) (fst x) ;;
      Ok (v :: fst r, snd r)
  end.
(** VTKMeshDataReader.h:36-38: the components of one value. *)
Fixpoint readComps (prev : list (option C)) (st : istate) : outcome (list (option C) * istate) :=
  match prev with
  | [] => Ok ([], st)
  | p :: r =>
      x <- extract st p ;;
      q <- readComps r (snd x) ;;
      Ok (fst x :: fst q, snd q)
  end.
(** VTKMeshDataReader.h:33-40 (3D) and 58-68 (2D, with the dummy [pad]): [n] values; the variables value and
    dummy are fixed size arrays. *)
Fixpoint readVectors (pad : bool) (n : nat) (st : istate) (prev : list (option C)) (dummy : option C)
  : outcome (list (list C) * istate) :=
  match n with
  | O => Ok ([], st)
  | S k =>
      x <- readComps prev st ;;
      y <- (if pad then extract (snd x) dummy else Ok (dummy, snd x)) ;;
      v <- mapM use (fst x) ;;
      r <- readVectors pad k (snd y) (fst x) (fst y) ;;
      Ok (v :: fst r, snd r)
  end.

(** What a traited member is: a scalar or an array of [k] components. *)
Inductive kind := KS | KV (k : nat).

(** VTKMeshDataReader.h:25-93 readColumn: seekg to the recorded position, to position 0 when the name is
    not known (operator[] of the map inserts a zero). *)
Definition readColumn (dim n : nat) (file : list (vtok C)) (ps : dpos) (st : istate) (name : string) (kd : kind)
  : outcome (coldata C * istate) :=
  let st0 := match st with
             | None => None
             | Some _ => Some (match dfind name ps with Some p => p | None => file end)
             end in
  match kd with
  | KS => r <- readScalars n st0 None ;; Ok (Sc (fst r), snd r)
  | KV k => r <- readVectors (dim =? 2)%nat n st0 (repeat None k) None ;; Ok (Ve (fst r), snd r)
  end.
Fixpoint readColumns (dim n : nat) (file : list (vtok C)) (ps : dpos) (st : istate) (cols : list (string * kind))
  : outcome (list (coldata C)) :=
  match cols with
  | [] => Ok []
  | (name, kd) :: r =>
      c <- readColumn dim n file ps st name kd ;;
      rest <- readColumns dim n file ps (snd c) r ;;
      Ok (fst c :: rest)
  end.
(** VTKMeshDataReader.h:236-243 readFromStream into a container with [n] cells. *)
Definition readData (dim n : nat) (file : list (vtok C)) (cols : list (string * kind)) : outcome (list (coldata C)) :=
  readColumns dim n file (indexData (length file) file) (Some file) cols.
End Read.

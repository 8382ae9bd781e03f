(** Cell data of VTK files on characters: MeshDataIO/VTKMeshDataWriter.h and VTKMeshDataReader.h with the stream operations of [M_Stream] (the token
    model is [M_VTKData]). The members of the data class are numbers (a floating point type, int or unsigned long) or arrays of a fixed number of them.
    The eofbit is modelled where the code depends on it (tellg, getline). As in [M_VTKData], the overloads for one DataContainer and for several
    containers cannot be instantiated. *)
From Coq Require Import String Ascii QArith.
From Verif Require Import Base M_Text M_Print M_Stream M_FileText M_VTKData.
Local Open Scope list_scope.
Local Open Scope nat_scope.

(** A number of a member and the type of the member. *)
Inductive num (C : Type) := Fl (c : C) | In32 (z : Z) | Un64 (n : N).
Arguments Fl {C}. Arguments In32 {C}. Arguments Un64 {C}.
Inductive nty := TFl | TIn | TUn.
Inductive mkind := MS (t : nty) | MV (t : nty) (k : nat).

Section Data.
Context {C : Type}.
Variable K : fp C.

(** * The writer *)
(** ost << x *)
Definition putZ (z : Z) : text := if (z <? 0)%Z then "-"%char :: putN (Z.to_N (- z)) else putN (Z.to_N z).
Definition putV (v : num C) : text := match v with Fl c => putC K c | In32 z => putZ z | Un64 n => putN n end.
(** ost << x << ' ' *)
Definition putVs (l : list (num C)) : text := flat_map (fun v => putV v ++ [blank]) l.
(** VTKMeshDataWriter.h:108, 176 *)
Definition scalarHead (name : text) : text :=
  str "SCALARS " ++ name ++ str " double 1" ++ [nl] ++ str "LOOKUP_TABLE default" ++ [nl].
(** VTKMeshDataWriter.h:55-60, 149-154 *)
Definition vectorHead (dim size : nat) (name : text) : text :=
  (if size =? dim then str "VECTORS " else if size =? dim * dim then str "TENZORS " else []) ++ name ++ str " double" ++ [nl].
(** VTKMeshDataWriter.h:69-71: components 0, ..., size - 1; operator[] out of range is undefined *)
Definition firstComps (size : nat) (v : list (num C)) : outcome (list (num C)) := mapM (vidx v) (seqN size).
(** VTKMeshDataWriter.h:49-93 and 101-132, then line 198 *)
Definition columnText3 (back : list (N * N)) (name : text) (d : coldata (num C)) : outcome text :=
  match d with
  | Sc vals => vs <- cursor vals back 0 0 ;; Ok (scalarHead name ++ putVs vs ++ [nl])
  | Ve vals =>
      v0 <- vat vals 0%N ;;
      vs <- cursor vals back 0 0 ;;
      ts <- mapM (firstComps (length v0)) vs ;;
      Ok (vectorHead 3 (length v0) name ++ flat_map putVs ts ++ [nl])
  end.
(** VTKMeshDataWriter.h:143-162 and 170-183, then line 198 *)
Definition columnText2 (name : text) (d : coldata (num C)) : outcome text :=
  match d with
  | Sc vals => Ok (scalarHead name ++ putVs vals ++ [nl])
  | Ve vals =>
      v0 <- vat vals 0%N ;;
      ts <- mapM (firstComps (length v0)) vals ;;
      Ok (vectorHead 2 (length v0) name ++ flat_map (fun v => putVs v ++ str "0.0 ") ts ++ [nl])
  end.
(** VTKMeshDataWriter.h:335-342 with 311-326 *)
Definition dataText (wc : text -> coldata (num C) -> outcome text) (ncells : N) (cols : list (text * coldata (num C))) : outcome text :=
  ts <- mapM (fun c => wc (fst c) (snd c)) cols ;;
  Ok (str "CELL_DATA " ++ putN ncells ++ [nl] ++ List.concat ts).

(** * The reader *)
(** line.find(s) != npos *)
Fixpoint starts (p s : text) : bool :=
  match p, s with [], _ => true | a :: p', b :: s' => Ascii.eqb a b && starts p' s' | _, _ => false end.
Fixpoint contains (p s : text) : bool := starts p s || match s with [] => false | _ :: r => contains p r end.
(** getline: the characters up to the next '\n' (which is extracted), and the rest; [None]: the end of the file came first (eofbit). *)
Fixpoint getLine (s : text) : text * option text :=
  match s with
  | [] => ([], None)
  | c :: r => if Ascii.eqb c nl then ([], Some r) else let (l, o) := getLine r in (c :: l, o)
  end.
(** ignore(n, d): the rest; [None]: the end of the file was met (eofbit). *)
Fixpoint skipTo (d : ascii) (n : nat) (s : text) : option text :=
  match n, s with
  | O, _ => Some s
  | S _, [] => None
  | S k, c :: r => if Ascii.eqb c d then Some r else skipTo d k r
  end.
(** VTKMeshDataReader.h:130-133: ignore(9, ' ') and >> on a stringstream of the line; the name is empty when no word is left. *)
Definition nameOf (line : text) : text :=
  match skipTo blank 9 line with
  | None => []
  | Some r => match getWord (mkI r false) with (Some w, _) => w | (None, _) => [] end
  end.
(** A position of the file: the characters from there; [None]: pos_type(-1), what tellg returns once the end of the file was met (its sentry fails). *)
Definition positions := list (text * option text).
Fixpoint find (n : text) (m : positions) : option (option text) :=
  match m with [] => None | (k, p) :: r => if text_eqb n k then Some p else find n r end.
(** VTKMeshDataReader.h:113-146 indexData; map::insert keeps the first position of a name. Every line has a character (its end) or is the last one;
    the length of the file bounds the number of lines. *)
Fixpoint indexText (fuel : nat) (s : text) : positions :=
  match fuel, s with
  | O, _ => []
  | _, [] => []
  | S k, _ =>
      match getLine s with
      | (l, None) => if contains (str "SCALARS") l || contains (str "VECTORS") l then [(nameOf l, None)] else []
      | (l, Some r) =>
          if contains (str "SCALARS") l then
            match skipTo nl 500 r with
            | None => [(nameOf l, None)]
            | Some r' => (nameOf l, Some r') :: indexText k r'
            end
          else if contains (str "VECTORS") l then (nameOf l, Some r) :: indexText k r
          else indexText k r
      end
  end.

(** ist >> x for a variable of the given type with the value [prev] ([None]: not initialised) *)
Definition readV (t : nty) (prev : option (num C)) (i : ist) : option (num C) * ist :=
  match t with
  | TFl => match getDec i with (Some q, i') => (Some (Fl (near K q)), i') | (None, i') => (prev, i') end
  | TIn => match getInt i with (Some z, i') => (Some (In32 z), i') | (None, i') => (prev, i') end
  | TUn => match getN i with (Some n, i') => (Some (Un64 n), i') | (None, i') => (prev, i') end
  end.
(** VTKMeshDataReader.h:86-91. A value that was never read is used uninitialised: [UB]. *)
Fixpoint readScalarsT (t : nty) (n : nat) (prev : option (num C)) (i : ist) : outcome (list (num C) * ist) :=
  match n with
  | O => Ok ([], i)
  | S k => let (x, i1) := readV t prev i in
           v <- use x ;; r <- readScalarsT t k x i1 ;; Ok (v :: fst r, snd r)
  end.
(** VTKMeshDataReader.h:36-38: ist >> value[j] for all j *)
Fixpoint readCompsT (t : nty) (prev : list (option (num C))) (i : ist) : list (option (num C)) * ist :=
  match prev with
  | [] => ([], i)
  | p :: r => let (x, i1) := readV t p i in let (q, i2) := readCompsT t r i1 in (x :: q, i2)
  end.
(** VTKMeshDataReader.h:33-40 (3D) and 58-68 (2D: dummy[0], of the type of the components, is read after every value) *)
Fixpoint readVectorsT (pad : bool) (t : nty) (n : nat) (prev : list (option (num C))) (dummy : option (num C)) (i : ist)
  : outcome (list (list (num C)) * ist) :=
  match n with
  | O => Ok ([], i)
  | S k => let (x, i1) := readCompsT t prev i in
           let (y, i2) := if pad then readV t dummy i1 else (dummy, i1) in
           v <- mapM use x ;; r <- readVectorsT pad t k x y i2 ;; Ok (v :: fst r, snd r)
  end.
(** VTKMeshDataReader.h:25-93: seekg does nothing on a failed stream, fails for position -1; a name that is not in the map is inserted with position 0. *)
Definition seek (file : text) (ps : positions) (name : text) (i : ist) : ist :=
  if failed i then i else
  match find name ps with Some (Some p) => mkI p false | Some None => mkI (chars i) true | None => mkI file false end.
Definition readColumnT (dim n : nat) (file : text) (ps : positions) (i : ist) (name : text) (kd : mkind) : outcome (coldata (num C) * ist) :=
  let i0 := seek file ps name i in
  match kd with
  | MS t => r <- readScalarsT t n None i0 ;; Ok (Sc (fst r), snd r)
  | MV t k => r <- readVectorsT (dim =? 2) t n (repeat None k) None i0 ;; Ok (Ve (fst r), snd r)
  end.
Fixpoint readColumnsT (dim n : nat) (file : text) (ps : positions) (i : ist) (cols : list (text * mkind)) : outcome (list (coldata (num C))) :=
  match cols with
  | [] => Ok []
  | (name, kd) :: r =>
      c <- readColumnT dim n file ps i name kd ;; rest <- readColumnsT dim n file ps (snd c) r ;; Ok (fst c :: rest)
  end.
(** VTKMeshDataReader.h:236-243 readFromStream into a container with [n] cells; the stream has not failed before. *)
Definition readDataText (dim n : nat) (file : text) (cols : list (text * mkind)) : outcome (list (coldata (num C))) :=
  readColumnsT dim n file (indexText (length file) file) (mkI file false) cols.
End Data.

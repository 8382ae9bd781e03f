(** Model of the file functions of UnstructuredMesh (UnstructuredMesh.h:238-508): load and write with the
    choice of the format by the path. Files are lists of [X]; the readers and writers are parameters here
    (modelled in M_FPMA, M_VTK, M_VTKWrite, M_Signature). *)
From Coq Require Import String Ascii.
From Verif Require Import Base M_Print M_Log.
Local Open Scope list_scope.

(** std::string::find(w) != npos *)
Fixpoint startsWith (w s : text) : bool :=
  match w, s with
  | [], _ => true
  | c :: w', d :: s' => Ascii.eqb c d && startsWith w' s'
  | _ :: _, [] => false
  end.
Fixpoint contains (w s : text) : bool :=
  startsWith w s || match s with [] => false | _ :: r => contains w r end.
(** UnstructuredMesh.h:348-351 checkExtension; substr(npos) throws std::out_of_range. *)
Definition checkExtension (path ext : text) : outcome bool :=
  match findLast "."%char path with
  | None => Throw
  | Some p => Ok (if teq (skipn p path) ext then true else false)
  end.

Section Files.
Context {X M Ty : Type}.        (* pieces of a text, meshes, containers of cell types *)
Definition disk := text -> option (list X).
Definition dset (d : disk) (n : text) (c : list X) : disk := fun m => if teq m n then Some c else d m.

(** Readers on a stream at its beginning; the flag tells that the stream is not in a failed state after. *)
Variables (readV : list X -> M -> outcome (M * Ty * bool)) (readF : list X -> M -> outcome (M * Ty)).
Inductive reader := RV (t : Ty) | RF (t : Ty).     (* the reader returned, with its cell types *)
(** UnstructuredMesh.h:247-277 (three dimensions, [fpma] = true) and 284-306 (two dimensions). Both readers
    work on the same stream; the second one seeks to the beginning, which does nothing if the stream is in a
    failed state: then uninitialised variables are used. *)
Definition load (fpma : bool) (d : disk) (path : text) (m : M) : outcome (M * option reader) :=
  match d path with
  | None => Throw
  | Some t =>
      a <- (if contains (str ".vtk") path
            then r <- readV t m ;; Ok (fst (fst r), Some (RV (snd (fst r))), snd r)
            else Ok (m, None, true)) ;;
      if fpma && contains (str ".fpma") path
      then if snd a then r <- readF t (fst (fst a)) ;; Ok (fst r, Some (RF (snd r))) else UB
      else Ok (fst a)
  end.

(** Writers: states, the text they write (all of it, or up to an exception) and their next state. *)
Context {SV SF : Type}.
Variables (newV : SV) (newF : SF).
Variables (writeV : SV -> M -> Ty -> list X * SV * outcome unit) (writeF : SF -> M -> list X * SF * outcome unit).
Variables (head : list X -> list X) (isEmpty : Ty -> bool) (polytopes : M -> Ty).
Variable canOpen : text -> bool.    (* the path can be opened for writing *)
Inductive writer := WV (s : SV) | WF (s : SF).
(** What a call leaves behind: the files, the writer variable, how it ended. *)
Record result := mkR { r_disk : disk; r_writer : option writer; r_end : outcome unit }.

(** 422-431 and 488-497: header, then the mesh; no types means polyhedra (polygons). *)
Definition putV (d : disk) (path : text) (s : SV) (m : M) (ty : Ty) (h : list X) : result :=
  let '(t, s', o) := writeV s m (if isEmpty ty then polytopes m else ty) in
  mkR (dset d path (head h ++ t)) (Some (WV s')) o.
(** 439-441 *)
Definition putF (d : disk) (path : text) (s : SF) (m : M) : result :=
  let '(t, s', o) := writeF s m in mkR (dset d path t) (Some (WF s')) o.
(** writer = write(path, types, header): when it throws the variable keeps its value *)
Definition assignNew (w : option writer) (r : result) : result :=
  match r_end r with Ok _ => r | _ => mkR (r_disk r) w (r_end r) end.
(** 359-381 and 454-470: write(path, types, header); the recursive call is the one with a new writer, whose
    format fits. On an exception nothing is returned. *)
Definition writeNew (fpma : bool) (d : disk) (path : text) (m : M) (ty : Ty) (h : list X) : result :=
  match checkExtension path (str ".vtk") with
  | Ok true => if canOpen path then assignNew None (putV d path newV m ty h) else mkR d None Throw
  | Ok false =>
      if fpma
      then match checkExtension path (str ".fpma") with
           | Ok true => if canOpen path then assignNew None (putF d path newF m) else mkR d None Throw
           | _ => mkR d None (Ok tt)
           end
      else mkR d None (Ok tt)
  | _ => mkR d None Throw
  end.
(** 394-445 and 479-505: write(path, writer, types, header). The file is opened, and so emptied, first. *)
Definition writeWith (fpma : bool) (d : disk) (path : text) (w : option writer) (m : M) (ty : Ty) (h : list X) : result :=
  match w with
  | None => assignNew w (writeNew fpma d path m ty h)
  | Some w0 =>
      if canOpen path then
        let d0 := dset d path [] in
        match w0 with
        | WV s =>
            match checkExtension path (str ".vtk") with
            | Ok true => putV d0 path s m ty h
            | Ok false => assignNew w (writeNew fpma d0 path m ty h)
            | _ => mkR d0 w Throw
            end
        | WF s =>
            match checkExtension path (str ".fpma") with
            | Ok true => putF d0 path s m
            | Ok false => assignNew w (writeNew fpma d0 path m ty h)
            | _ => mkR d0 w Throw
            end
        end
      else mkR d w Throw
  end.
End Files.
Arguments RV {Ty} t.
Arguments RF {Ty} t.
Arguments WV {SV SF} s.
Arguments WF {SV SF} s.

(** The file functions of UnstructuredMesh with the actual readers and writers. A file is a list of tokens of
    either format. *)
From Coq Require Import String Ascii.
From Verif Require Import Base M_Print M_Log M_Conn M_Mesh M_Text M_FPMA M_VTK M_VTKWrite M_Signature M_Files.
Local Open Scope list_scope.

Section Inst.
Context {C : Type}.
Definition piece := (vtok C + tok C)%type.
Definition vtkPart (t : list piece) : list (vtok C) := flat_map (fun x => match x with inl a => [a] | inr _ => [] end) t.
Definition fpmaPart (t : list piece) : list (tok C) := flat_map (fun x => match x with inr a => [a] | inl _ => [] end) t.
(** The hash functions of [M_Signature]; the state of a stream after the VTK reader; what is in the file when
    a writer throws. All arbitrary. *)
Variables (hi : N -> N) (hc : list N -> N) (he : list (list N) -> N) (he2 : list Face -> N).
Variable flag : list piece -> bool.
Variable partText : list piece.
Definition finish {I} (r : outcome (list piece) * @wstate I) : list piece * @wstate I * outcome unit :=
  match fst r with
  | Ok t => (t, snd r, Ok tt)
  | Throw => (partText, snd r, Throw)
  | UB => (partText, snd r, UB)
  | Diverge => (partText, snd r, Diverge)
  end.
Definition mapR {A B S} (f : A -> B) (r : outcome A * S) : outcome B * S := (a <- fst r ;; Ok (f a), snd r).

Section D3.
Variables (hv : list (C * C * C) -> N) (reserve : nat).
Definition readV3 (t : list piece) (m : Mesh (C * C * C)) : outcome (Mesh (C * C * C) * list etype * bool) :=
  r <- loadVTK3 reserve (vtkPart t) m [] ;; Ok (r, flag t).
(** FPMAMeshReader.h:33-36 setupCellTypes; load makes a new reader, so its container was empty. *)
Definition readF3 (t : list piece) (m : Mesh (C * C * C)) : outcome (Mesh (C * C * C) * list etype) :=
  r <- loadFPMA reserve (fpmaPart t) m ;; Ok (r, repeat POLYHEDRON (length (m_cells r))).
Variables (geo : Mesh (C * C * C) -> list (list bool) * (N -> C * C * C) * (N -> C * C * C)) (key : C * C * C -> string).
Variables (partialV : Mesh (C * C * C) * list etype -> @tess (C * C * C) -> @tess (C * C * C)).
Variables (partialF : Mesh (C * C * C) -> list (list N) * list (list N) -> list (list N) * list (list N)).
Definition writeV3 st m types := finish (mapR (map inl) (vtk3_write hi hc he he2 hv geo key partialV st (m, types))).
Definition writeF3 st m := finish (mapR (map inr) (fpma_write hi hc he he2 hv partialF st m)).
(** [h0], [i0]: lastHash of a new FPMA writer (uninitialised) and its empty index. *)
Definition load3 d path m := load readV3 readF3 true d path m.
Definition write3 h0 i0 canOpen d path w m types (name : list (vtok C)) :=
  writeWith (mkW 0%N (mkTess [] [] [] [])) (mkW h0 i0) writeV3 writeF3 (fun h => map inl (writeHeader (vtkPart h)))
    (fun ty => match ty with [] => true | _ => false end) (fun m => repeat POLYHEDRON (length (m_cells m)))
    canOpen true d path w m types (map inl name).
End D3.

Section D2.
Variables (hv : list (C * C) -> N) (zero : C).
Definition readV2 (t : list piece) (m : Mesh (C * C)) : outcome (Mesh (C * C) * list etype * bool) :=
  r <- loadVTK2 (vtkPart t) m [] ;; Ok (r, flag t).
Definition writeV2 st m types := finish (mapR (map inl) (vtk2_write hi hc he he2 hv zero st (m, types))).
Definition load2 d path m := load readV2 (fun _ _ => UB) false d path m.
Definition write2 h0 i0 canOpen d path w m types (name : list (vtok C)) :=
  writeWith (mkW h0 i0) tt writeV2 (fun s _ => ([], s, UB)) (fun h => map inl (writeHeader (vtkPart h)))
    (fun ty => match ty with [] => true | _ => false end) (fun m => repeat POLYGON (length (m_cells m)))
    canOpen false d path w m types (map inl name).
End D2.
End Inst.

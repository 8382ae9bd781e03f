(** Model of the mesh signature (MeshElements.h:195-322) and of the index caches of the mesh writers. *)
From Coq Require Import String.
From Verif Require Import Base M_Conn M_Mesh M_Apply M_Connections M_Text M_FPMA M_VTK M_VTKWrite.
Local Open Scope N_scope.
Local Open Scope list_scope.

(** * Signature *)
Section Sig.
Context {V : Type}.
(** std::hash<IndexType>, and std::hash<std::string> of the bytes of the vector of cells, of edges and of
    vertices; in a planar mesh the bytes of an edge include its cells and successors (it is a face). The
    functions are arbitrary. Centres and measures stored in the elements are hashed too (they are not in
    the model: meshes that differ in them are not distinguished here). *)
Variable hi : N -> N.
Variable hc : list N -> N.
Variable he : list (list N) -> N.
Variable he2 : list Face -> N.
Variable hv : list V -> N.

(** MeshElements.h:201-216: the generic case, dimensions 2 .. Dimension-1. (The specialisation of lines
    220-239 for reserved storage has second argument size_t, the default is void: it is never chosen.) *)
Definition hashElems (elems : list (list N)) : N :=
  fold_left (fun h es => fold_left (fun h s => N.lxor h (hi s)) es h) elems (N.of_nat (length elems)).
Definition elems (m : Mesh V) (k : nat) : list (list N) :=
  if (k =? m_dim m - 1)%nat then map f_subs (m_faces m) else nth (k - 1) (m_mid m) [].
(** MeshElements.h:198-312 *)
Fixpoint hashDims (m : Mesh V) (k : nat) : N :=
  match k with
  | O => hv (m_verts m)
  | S O => N.lxor (if (m_dim m =? 2)%nat then he2 (m_faces m) else he (nth 0 (m_mid m) [])) (hv (m_verts m))
  | S k' => N.lxor (hashElems (elems m k)) (hashDims m k')
  end.
(** MeshElements.h:316-322 updateSignature *)
Definition signature (m : Mesh V) : N := N.lxor (hc (m_cells m)) (hashDims m (m_dim m - 1)).
End Sig.

(** * The cache of a writer *)
(** The common shape of FPMAMeshWriter.h:121-131, VTKMeshWriter.h:135-145 and 582-593: [key] is what
    computeHash looks at, [index] the indexMesh member, [emit] the rest of writeToStream. When indexMesh
    throws, lastHash keeps its value and the tables hold what was stored so far ([partial]). *)
Section Cache.
Context {M I T : Type}.
Variables (key : M -> N) (index : M -> outcome I) (partial : M -> I -> I) (emit : M -> I -> outcome T).
Record wstate := mkW { w_last : N; w_idx : I }.
Definition cwrite (st : wstate) (x : M) : outcome T * wstate :=
  if w_last st =? key x then (emit x (w_idx st), st)
  else match index x with
       | Ok i => (emit x i, mkW (key x) i)
       | Throw => (Throw, mkW (w_last st) (partial x (w_idx st)))
       | UB => (UB, st)
       | Diverge => (Diverge, st)
       end.
Fixpoint crun (st : wstate) (xs : list M) : wstate :=
  match xs with [] => st | x :: r => crun (snd (cwrite st x)) r end.
End Cache.
Arguments mkW {I}.
Arguments w_last {I}.
Arguments w_idx {I}.

(** The values computed before the first failure of [mapM]. *)
Fixpoint mapM_prefix {A B} (f : A -> outcome B) (l : list A) : list B :=
  match l with
  | [] => []
  | a :: r => match f a with Ok b => b :: mapM_prefix f r | _ => [] end
  end.

Section Writers.
Context {C : Type}.
Variable hi : N -> N.
Variable hc : list N -> N.
Variable he : list (list N) -> N.
Variable he2 : list Face -> N.

(** VTKMeshWriter.h:135-176 with its cache. The cell types are not part of the key; indexMesh (113-133)
    fills cellVert cell by cell and sets the total at the end. *)
Definition sig2 (hv : list (C * C) -> N) (x : Mesh (C * C) * list etype) : N := signature hi hc he he2 hv (fst x).
Definition vtk2_write hv (zero : C) :=
  cwrite (sig2 hv) (fun x => indexMesh2 (fst x))
         (fun x old => (mapM_prefix (indexCell (fst x)) (seqN (length (m_cells (fst x)))), snd old))
         (fun x i => emitVTK2 zero (fst x) i (snd x)).
(** VTKMeshWriter.h:582-633 with its cache; [geo] gives the orientations and centres of a mesh. What a
    throwing indexMesh leaves behind is not modelled ([partial] arbitrary). *)
Definition sig3 (hv : list (C * C * C) -> N) (x : Mesh (C * C * C) * list etype) : N := signature hi hc he he2 hv (fst x).
Definition vtk3_write hv (geo : Mesh (C * C * C) -> list (list bool) * (N -> C * C * C) * (N -> C * C * C)) key partial :=
  cwrite (T := list (vtok C)) (sig3 hv)
         (fun x => let g := geo (fst x) in indexMesh3 (fst (fst g)) (snd (fst g)) (snd g) key (fst x) (snd x))
         partial (fun x i => emitVTK3 (fst x) i).
(** FPMAMeshWriter.h:121-165 with its cache. *)
Definition fpma_write hv partial :=
  cwrite (T := list (tok C)) (signature hi hc he he2 hv) indexMeshFPMA partial (fun m i => emitFPMA m (fst i) (snd i)).
End Writers.

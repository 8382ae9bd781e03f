(** Model of the geometric functions for meshes of any dimension with separately computed centres:
    MeshFunctions/GetCenters.h, ComputeNormals.h:22-53 and 176-187 (computeFaceNormals(centers, mesh)),
    ComputeMeasures.h:22-133 and 299-310 (computeMeasures(centers, mesh)). In C++ they compile for dimension
    4 and higher only: the specialisations for dimensions 2 and 3 do not have these overloads. [cs]: the
    tables of the centres of the elements of dimension 1, 2, ... (the result of computeCenters). *)
From Verif Require Import Base M_Conn M_Index M_Mesh M_Apply M_Vec M_Geom.

Section GeomN.
Context {K : Num}.
Local Notation vecK := (vec K).
Implicit Type m : Mesh vecK.

(** operator[] instead of at(): out of range is undefined. *)
Definition unchecked {A} (o : outcome A) : outcome A := match o with Throw => UB | _ => o end.
(** centers.getDataByDim<k>()[i] *)
Definition centerAt (cs : list (list vecK)) (k : nat) (i : N) : outcome vecK := vidx (nth (k - 1) cs []) i.

(** GetCenters.h:10-40: the end points of an edge; the centre of an element of dimension k > 1 followed by
    what is got for its first subelement. (Lines 42-53, a cell, are not used by the functions below.) *)
Fixpoint getCenters m (cs : list (list vecK)) (k : nat) (i : N) : outcome (list vecK) :=
  match k with
  | O => UB            (* does not compile *)
  | S O => ab <- unchecked (edge_pts m i) ;; Ok [fst ab; snd ab]
  | S k' =>
      c <- centerAt cs k i ;;
      js <- unchecked (subs m k i) ;;
      j <- vidx js 0 ;;
      r <- getCenters m cs k' j ;;
      Ok (c :: r)
  end.
(** ComputeNormals.h:40-44, ComputeMeasures.h:41-45: res[i] - res[0], and the vector from res[0] to x. *)
Definition frameVecs (res : list vecK) (x : vecK) : outcome (list vecK) :=
  match res with
  | [] => UB
  | p0 :: r => Ok (map (fun p => vsub p p0) r ++ [vsub x p0])
  end.
Definition lastOf {A} (l : list A) : outcome A := vidx l (N.of_nat (length l) - 1).

(** ComputeNormals.h:26-52: one face. *)
Definition normalN m (cs : list (list vecK)) (f : N) : outcome vecK :=
  face <- vat (m_faces m) f ;;
  let (cell, s) := side_cell (f_conn face) in
  x <- vat (nth (m_dim m - 1) cs []) cell ;;
  res <- getCenters m cs (m_dim m - 1) f ;;
  vs <- frameVecs res x ;;
  gs <- gramSchmidtN vs ;;
  n <- lastOf (fst gs) ;;
  Ok (scalev (sign_of s) n).
Definition computeNormalsN m cs : outcome (list vecK) := mapM (normalN m cs) (seqN (length (m_faces m))).

(** ComputeMeasures.h:38-50 and 77-88: the lambda, for the element with centre [x]. *)
Definition measure_step m (cs : list (list vecK)) (k : nat) (sub : list K) (x : vecK) (s : K) (c : N * N) : outcome K :=
  res <- getCenters m cs (k - 1) (snd c) ;;
  vs <- frameVecs res x ;;
  gs <- gramSchmidtN vs ;;
  h <- lastOf (snd gs) ;;
  a <- vidx sub (snd c) ;;
  Ok (nadd s (nmul h a)).
Fixpoint ofNat (k : nat) : K := match k with O => nzero | S k' => nadd (ofNat k') none_ end.
(** 33-57, 72-95: the elements of dimension k. *)
Definition measure_level m cs (k : nat) (sub : list K) : outcome (list K) :=
  mapM (fun i => calls <- apply1 m k (k - 1) i ;;
                 x <- centerAt cs k i ;;
                 s <- foldM (measure_step m cs k sub x) calls nzero ;;
                 Ok (nmul (ndiv none_ (ofNat k)) s))
       (seqN (n_elems m k)).
Fixpoint measure_levels m cs (steps k : nat) (sub : list K) : outcome (list (list K)) :=
  match steps with
  | O => Ok []
  | S s => l <- measure_level m cs k sub ;; r <- measure_levels m cs s (S k) l ;; Ok (l :: r)
  end.
(** 119-132, 299-310: the tables of measures of dimensions 1, 2, ... *)
Definition computeMeasuresN m cs : outcome (list (list K)) :=
  l <- edge_lengths m ;;
  r <- measure_levels m cs (m_dim m - 1) 2 l ;;
  Ok (l :: r).
End GeomN.

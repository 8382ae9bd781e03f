(** Specification vocabulary for the cells a VTK file contains in place of the mesh cells. *)
From Coq Require Import String.
From Verif Require Import Base M_Conn M_Mesh S_Mesh M_VTK.
Local Open Scope list_scope.

(** The cell types VTK has a code for in 3D (in this library). *)
Definition native3 (t : etype) : bool :=
  match t with TETRA | HEXAHEDRON | WEDGE | PYRAMID => true | _ => false end.

Section Tess.
Context {V K : Type}.
Variable m : Mesh V.
Variables (ccenter fcenter : N -> V) (key : V -> K).

(** The (face, edge) incidences of the cell whose boundary walk is [fs]: every face with each of its edges. *)
Inductive incidences : list N -> list (N * N) -> Prop :=
| inc_nil : incidences [] []
| inc_cons f fs fc is :
    nth_error (m_faces m) (N.to_nat f) = Some fc -> incidences fs is ->
    incidences (f :: fs) (map (fun e => (f, e)) (f_subs fc) ++ is).

(** [t] is the tetrahedron spanned by the edge, the centre of the face and the centre of the cell,
    as vertex indices into [pts]. Centres are identified by their key; they follow the vertices of the mesh. *)
Definition tetra_of (pts : list V) (c : N) (fe : N * N) (t : list N * etype) : Prop :=
  exists a b fi ci p q,
    t = ([a; b; fi; ci], TETRA) /\
    nth_error (nth 0 (m_mid m) []) (N.to_nat (snd fe)) = Some [a; b] /\
    nth_error pts (N.to_nat fi) = Some p /\ key p = key (fcenter (fst fe)) /\
    nth_error pts (N.to_nat ci) = Some q /\ key q = key (ccenter c) /\
    length (m_verts m) <= N.to_nat fi /\ length (m_verts m) <= N.to_nat ci.

(** A point is the centre of a cell or of a face. *)
Definition is_centre (p : V) : Prop :=
  (exists c, (c < N.of_nat (length (m_cells m)))%N /\ p = ccenter c) \/ (exists f, (f < N.of_nat (length (m_faces m)))%N /\ p = fcenter f).

(** The VTK cells written for mesh cell [c] of type [ty]: itself, or its tetrahedra. *)
Definition written_for (pts : list V) (c : N) (ty : etype) (block : list (list N * etype)) : Prop :=
  if native3 ty then exists vs, block = [(vs, ty)]
  else exists fs is, ring m c fs /\ incidences fs is /\ Forall2 (tetra_of pts c) is block.
End Tess.

(** [sources c lens]: for every emitted cell the mesh cell it comes from, when the mesh cells
    c, c+1, ... are replaced by [lens] cells each. *)
Fixpoint sources (c : N) (lens : list nat) : list N :=
  match lens with [] => [] | n :: r => repeat c n ++ sources (c + 1) r end.
(** [numbered k l]: the elements of [l] with their positions k, k+1, ... *)
Fixpoint numbered {A} (k : N) (l : list A) : list (N * A) :=
  match l with [] => [] | a :: r => (k, a) :: numbered (k + 1) r end.

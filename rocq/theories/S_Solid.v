(** Specification vocabulary: mesh cells that are solids VTK has a type for. *)
From Coq Require Import String Permutation.
From Verif Require Import Base M_Conn M_Mesh S_Mesh M_FPMA S_FPMA M_VTK S_VTK.
Local Open Scope list_scope.

(** The number of vertices of the cell types written as one VTK cell. *)
Definition solid_size (t : etype) : option nat :=
  match t with TETRA => Some 4 | PYRAMID => Some 5 | WEDGE => Some 6 | HEXAHEDRON => Some 8 | _ => None end.

Section Solid.
Context {V : Type}.
(** [vs] is the vertex cycle of face [f] of the mesh. *)
Definition face_polygon (m : Mesh V) (f : N) (vs : list N) : Prop :=
  exists fc, nth_error (m_faces m) (N.to_nat f) = Some fc /\ bounds (nth 0 (m_mid m) []) (f_subs fc) vs.
(** The boundary of cell [c] consists of exactly the face polygons of the VTK cell with vertices [vs]
    ([faces_of] in [S_VTK]), in any order. *)
Definition is_solid (m : Mesh V) (c : N) (vs : list N) : Prop :=
  NoDup vs /\ exists fs ps, ring m c fs /\ Permutation ps (faces_of vs) /\ Forall2 (face_polygon m) fs ps.
End Solid.

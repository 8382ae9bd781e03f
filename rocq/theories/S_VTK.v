(** Specification vocabulary for legacy VTK files. *)
From Coq Require Import String.
From Verif Require Import Base M_Conn M_Mesh M_FPMA S_FPMA M_VTK.
Local Open Scope string_scope.
Local Open Scope list_scope.

(** The content of a legacy VTK file with an unstructured grid: points, the vertex list of each cell,
    the type code of each cell. *)
Record vtk_file (C : Type) := mkVtk {
  vf_pts : list (C * C * C);
  vf_cells : list (list N);
  vf_types : list N
}.
Arguments mkVtk {C}.
Arguments vf_pts {C}.
Arguments vf_cells {C}.
Arguments vf_types {C}.

Section Layout.
Context {C : Type}.
Definition vnum {A} (l : list A) : vtok C := Vn (N.of_nat (List.length l)).
(** Two free lines, then the keywords. *)
Definition vtk_header (line1 line2 : list (vtok C)) : list (vtok C) :=
  line1 ++ [Vnl] ++ line2 ++ [Vnl] ++ [Vw "ASCII"; Vnl; Vw "DATASET"; Vw "UNSTRUCTURED_GRID"; Vnl].
Definition points_section (pts : list (C * C * C)) : list (vtok C) :=
  [Vw "POINTS"; vnum pts; Vw "double"; Vnl] ++
  flat_map (fun p => [Vc (fst (fst p)); Vc (snd (fst p)); Vc (snd p); Vnl]) pts ++ [Vnl].
Definition row (vs : list N) : list (vtok C) := vnum vs :: map (fun x => Vn x) vs ++ [Vnl].
Definition cells_section (cells : list (list N)) : list (vtok C) :=
  [Vw "CELLS"; vnum cells; Vn (N.of_nat (list_sum (map (fun vs => S (List.length vs)) cells))); Vnl] ++
  flat_map row cells ++ [Vnl].
Definition types_section (codes : list N) : list (vtok C) :=
  [Vw "CELL_TYPES"; vnum codes; Vnl] ++ flat_map (fun t => [Vn t; Vnl]) codes ++ [Vnl].
(** The three sections, as laid out by the writers. *)
Definition vtk_body (F : vtk_file C) : list (vtok C) :=
  points_section (vf_pts F) ++ cells_section (vf_cells F) ++ types_section (vf_types F).
Definition one_line (l : list (vtok C)) : Prop := ~ In Vnl l.
End Layout.

(** The polygon [vs] has a side joining [a] and [b]. *)
Definition has_side (vs : list N) (a b : N) : Prop := exists i, side vs i a b \/ side vs i b a.

(** A conforming planar grid: proper polygons, and every side belongs to at most two of them.
    Sizes fit the index type. *)
Record grid2_ok {C} (F : vtk_file C) : Prop := {
  g2_poly : forall vs, In vs (vf_cells F) -> polygon vs;
  g2_two : forall a b l, NoDup l ->
           (forall c, In c l -> exists vs, nth_error (vf_cells F) (N.to_nat c) = Some vs /\ has_side vs a b) ->
           List.length l <= 2;
  g2_cells : (N.of_nat (List.length (vf_cells F)) <= INVALID)%N;
  g2_size : (N.of_nat (List.length (List.concat (vf_cells F))) <= INVALID)%N;
  g2_types : List.length (vf_types F) <= List.length (vf_cells F)
}.

(** The element vector of a planar mesh's edges, as vertex pairs. *)
Definition edges2 {V} (m : Mesh V) : list (list N) := map f_subs (m_faces m).

(** * Three dimensions *)
(** The faces of the VTK cells with 4 (tetrahedron), 5 (pyramid), 6 (wedge) and 8 (hexahedron) vertices,
    as polygons of vertex positions (VTK file format documentation). *)
Definition shape_faces (nv : nat) : list (list nat) :=
  match nv with
  | 4 => [[0;1;2]; [0;1;3]; [1;2;3]; [0;2;3]]
  | 5 => [[0;1;2;3]; [0;1;4]; [1;2;4]; [2;3;4]; [3;0;4]]
  | 6 => [[0;1;2]; [0;1;4;3]; [1;2;5;4]; [0;2;5;3]; [3;4;5]]
  | 8 => [[0;1;2;3]; [0;1;5;4]; [1;2;6;5]; [2;3;7;6]; [3;0;4;7]; [4;5;6;7]]
  | _ => []
  end.

(** The face polygons of the cell with vertices [vs]. *)
Definition faces_of (vs : list N) : list (list N) :=
  map (map (fun k => nth k vs 0%N)) (shape_faces (List.length vs)).

(** Two polygons with the same sides: the same face. *)
Definition same_sides (p q : list N) : Prop := forall a b, has_side p a b <-> has_side q a b.

(** A conforming grid of these cells: every face belongs to at most two of them. Sizes fit the index type. *)
Record grid3_ok {C} (F : vtk_file C) : Prop := {
  g3_cell : forall vs, In vs (vf_cells F) -> NoDup vs /\ In (List.length vs) [4; 5; 6; 8];
  g3_two : forall p l, NoDup l ->
           (forall c, In c l -> exists vs q, nth_error (vf_cells F) (N.to_nat c) = Some vs /\
                                             In q (faces_of vs) /\ same_sides p q) ->
           List.length l <= 2;
  g3_size : (N.of_nat (6 * List.length (vf_cells F)) <= INVALID)%N;
  g3_types : List.length (vf_types F) <= List.length (vf_cells F)
}.

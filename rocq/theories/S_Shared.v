(** Specification vocabulary for C104: mesh files in which a face belongs to more than two cells. *)
From Verif Require Import Base M_Mesh S_FPMA S_VTK.
Local Open Scope list_scope.
Local Open Scope nat_scope.

(** Cell [c] is one of the first two cells that list face [f]. *)
Definition keeps (cells : list (list N)) (f c : N) : Prop := In c (firstn 2 (listing cells f)).
(** [c] is the first or the last with the property. *)
Definition outer (P : N -> Prop) (c : N) : Prop := (forall d, P d -> (c <= d)%N) \/ (forall d, P d -> (d <= c)%N).
(** The cells of a VTK file that have the side [a] [b]; the face [p]. *)
Definition at_side {C} (F : vtk_file C) (a b d : N) : Prop := exists vs, nth_error (vf_cells F) (N.to_nat d) = Some vs /\ has_side vs a b.
Definition at_face {C} (F : vtk_file C) (p : list N) (d : N) : Prop :=
  exists vs q, nth_error (vf_cells F) (N.to_nat d) = Some vs /\ In q (faces_of vs) /\ same_sides p q.

(** An FPMA file whose cells list existing faces, none of them twice; a face may belong to any number of cells. *)
Record file_cells {C} (F : fpma_file C) : Prop := {
  fc_faces : (N.of_nat (length (ff_polys F)) <= INVALID)%N;
  fc_cells : (N.of_nat (length (ff_cells F)) <= INVALID)%N;
  fc_cell : forall fs, In fs (ff_cells F) -> fs <> [] /\ NoDup fs /\ forall f, In f fs -> (f < N.of_nat (length (ff_polys F)))%N
}.
(** A planar VTK grid of proper polygons; any number of them at a side. *)
Record grid2_any {C} (F : vtk_file C) : Prop := {
  ga2_poly : forall vs, In vs (vf_cells F) -> polygon vs;
  ga2_cells : (N.of_nat (length (vf_cells F)) <= INVALID)%N;
  ga2_size : (N.of_nat (length (List.concat (vf_cells F))) <= INVALID)%N;
  ga2_types : length (vf_types F) <= length (vf_cells F)
}.
(** A spatial VTK grid of tetrahedra, pyramids, wedges and hexahedra; any number of them at a face. *)
Record grid3_any {C} (F : vtk_file C) : Prop := {
  ga3_cell : forall vs, In vs (vf_cells F) -> NoDup vs /\ In (length vs) [4; 5; 6; 8];
  ga3_size : (N.of_nat (6 * length (vf_cells F)) <= INVALID)%N;
  ga3_types : length (vf_types F) <= length (vf_cells F)
}.

(** Files of convex polyhedra (C78). [g] says which point of the space a triple of coordinates is. *)
From Coq Require Import Reals List NArith Permutation.
From Verif Require Import Base M_Conn M_Mesh S_Mesh S_Vec S_Geom S_Polygon S_Convex M_FPMA S_FPMA M_VTK S_VTK.
Import ListNotations.
Local Open Scope nat_scope.

(** A polygon, or the same polygon in the other direction. *)
Definition turned {A} (same : bool) (p : list A) : list A := if same then p else rev p.

Section Files.
Context {C : Type} (g : C * C * C -> point).

Definition point_of (pts : list (C * C * C)) (v : N) : point :=
  match nth_error pts (N.to_nat v) with Some p => g p | None => [] end.

(** FPMA: [out c f] tells whether the file lists the vertices of face f counterclockwise as seen from outside of cell c. *)
Definition face_seen (F : fpma_file C) (out : N -> N -> bool) (c f : N) : list N :=
  turned (out c f) (nth (N.to_nat f) (ff_polys F) []).
Definition cell_solid (F : fpma_file C) (out : N -> N -> bool) (c : N) (fs : list N) : list (list point) :=
  map (fun f => map (point_of (ff_verts F)) (face_seen F out c f)) fs.

(** Every cell is a convex polyhedron, every face belongs to a cell, the two cells of a face lie on different sides of it. *)
Record convex_file3 (F : fpma_file C) (out : N -> N -> bool) : Prop := {
  cf_file : file_ok F;
  cf_size : (N.of_nat (length (ff_cells F)) <= 2 ^ 63)%N;
  cf_poly : forall p, In p (ff_polys F) -> polygon p /\ forall v, In v p -> (v < N.of_nat (length (ff_verts F)))%N;
  cf_used : forall f, (f < N.of_nat (length (ff_polys F)))%N -> exists fs, In fs (ff_cells F) /\ In f fs;
  cf_convex : forall c fs, nth_error (ff_cells F) (N.to_nat c) = Some fs -> convex_solid (cell_solid F out c fs);
  cf_opposite : forall f c c' fs fs', nth_error (ff_cells F) (N.to_nat c) = Some fs -> nth_error (ff_cells F) (N.to_nat c') = Some fs' ->
    In f fs -> In f fs' -> c <> c' -> out c f = negb (out c' f)
}.

(** VTK: the faces of a cell are given by its vertices; [out k] tells whether the k-th of them (in the order of [faces_of]) is
    counterclockwise as seen from outside. *)
Definition outer_faces (out : nat -> bool) (vs : list N) : list (list N) :=
  map (fun kp => turned (out (fst kp)) (snd kp)) (combine (seq 0 (length (faces_of vs))) (faces_of vs)).
Definition vtk_solid (F : vtk_file C) (out : nat -> bool) (vs : list N) : list (list point) :=
  map (map (point_of (vf_pts F))) (outer_faces out vs).

Record convex_grid3 (F : vtk_file C) (out : N -> nat -> bool) : Prop := {
  cg3_grid : grid3_ok F;
  cg3_size : (N.of_nat (length (vf_cells F)) <= 2 ^ 63)%N;
  cg3_range : forall vs v, In vs (vf_cells F) -> In v vs -> (v < N.of_nat (length (vf_pts F)))%N;
  cg3_convex : forall c vs, nth_error (vf_cells F) (N.to_nat c) = Some vs -> convex_solid (vtk_solid F (out c) vs);
  cg3_opposite : forall c c' vs vs' p q, nth_error (vf_cells F) (N.to_nat c) = Some vs -> nth_error (vf_cells F) (N.to_nat c') = Some vs' ->
    c <> c' -> In p (outer_faces (out c) vs) -> In q (outer_faces (out c') vs') -> same_sides p q ->
    forall i a b, side p i a b -> exists j, side q j b a
}.
End Files.

(** A VTK file of tetrahedra: none is flat, and two of them with a common face lie on different sides of it. *)
Record tet_grid {C} (g : C * C * C -> point) (F : vtk_file C) : Prop := {
  tg_cell : forall vs, In vs (vf_cells F) -> (forall v, In v vs -> (v < N.of_nat (length (vf_pts F)))%N) /\
    exists a b c d, vs = [a; b; c; d] /\ let P := point_of g (vf_pts F) in vol6 (P a) (P b) (P c) (P d) <> 0%R;
  tg_sides : forall c c' vs vs' x y z d d', nth_error (vf_cells F) c = Some vs -> nth_error (vf_cells F) c' = Some vs' -> c <> c' ->
    Permutation vs [x; y; z; d] -> Permutation vs' [x; y; z; d'] ->
    let P := point_of g (vf_pts F) in (vol6 (P x) (P y) (P z) (P d) * vol6 (P x) (P y) (P z) (P d') < 0)%R;
  tg_size : (N.of_nat (6 * length (vf_cells F)) <= INVALID)%N;
  tg_types : length (vf_types F) <= length (vf_cells F)
}.
Definition tet_volume {C} (g : C * C * C -> point) (F : vtk_file C) (vs : list N) : R :=
  match map (point_of g (vf_pts F)) vs with [a; b; c; d] => (Rabs (vol6 a b c d) / 6)%R | _ => 0%R end.

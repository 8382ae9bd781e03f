(** Numbers that survive a text file (C110), independent of the code. *)
From Coq Require Import QArith Qabs Reals List NArith.
From Verif Require Import Base M_Conn M_Mesh M_FileText S_Stream S_Mesh S_FPMA S_Vec S_Geom.
(** The coordinate type keeps its own values: a decimal number equal to a coordinate is read as that coordinate (as for float and
    double, whose nearest value to a value of the type is that value). *)
Definition keeps {C} (K : fp C) : Prop := forall c q, (q == val K c)%Q -> (val K (near K q) == val K c)%Q.
(** The coordinate has at most six significant decimal digits. *)
Definition short_number {C} (K : fp C) (c : C) : Prop := six_digits (val K c).
(** No triangle of an edge of a face and the centre of the face is degenerate. *)
Definition sturdy_faces (m : Mesh point) (fc : list point) : Prop :=
  forall f face e a b c, nth_error (m_faces m) (N.to_nat f) = Some face -> In e (f_subs face) -> edge_points m e a b ->
    nth_error fc (N.to_nat f) = Some c -> tri_area c a b <> 0%R.
(** The vertices of every face lie in a plane. *)
Definition flat_faces (m : Mesh point) (edges : list (list N)) : Prop :=
  forall face vs, In face (m_faces m) -> bounds edges (f_subs face) vs -> coplanar (map (fun v => nth (N.to_nat v) (m_verts m) nil) vs).
(** Reading to the nearest value: no value of the type is nearer to the number. *)
Definition reads_nearest {C} (K : fp C) : Prop := forall q c, (Qabs (val K (near K q) - q) <= Qabs (val K c - q))%Q.

(** The centre of gravity of a face (C109), independent of the code. *)
From Coq Require Import Reals List NArith.
From Verif Require Import Base M_Conn M_Mesh S_Mesh S_Vec S_Geom S_Polygon.
Local Open Scope R_scope.

(** The point P is the area centroid of the face f, cut into the triangles between its centre and its edges. *)
Definition face_centroid (m : Mesh point) (fc : list point) (f : N) (P : point) : Prop :=
  forall face es c, nth_error (m_faces m) (N.to_nat f) = Some face -> Forall2 (fun e ab => edge_points m e (fst ab) (snd ab)) (f_subs face) es ->
    nth_error fc (N.to_nat f) = Some c -> is_centroid 3 (map (fun e => (c, fst e, snd e)) es) P.

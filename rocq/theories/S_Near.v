(** Meshes whose vertices have moved a little: textbook vocabulary, independent of the code. *)
From Coq Require Import Reals List NArith.
From Verif Require Import Base M_Conn M_Mesh S_Mesh S_Vec S_Geom.
Import ListNotations.
Local Open Scope R_scope.

(** No coordinate of the point differs by more than [d]. *)
Definition near_point (d : R) (p p' : point) : Prop := forall i, Rabs (nth i p' 0 - nth i p 0) <= d.
(** The points fit into a box with sides of length [w]. *)
Definition width (w : R) (ps : list point) : Prop := forall p q i, In p ps -> In q ps -> Rabs (nth i p 0 - nth i q 0) <= w.
(** The same mesh with vertices moved by at most [d] in every coordinate. *)
Record moved (d : R) (m m' : Mesh point) : Prop := {
  mv_dim : m_dim m' = m_dim m;
  mv_mid : m_mid m' = m_mid m;
  mv_faces : m_faces m' = m_faces m;
  mv_cells : m_cells m' = m_cells m;
  mv_verts : Forall2 (fun p p' => length p' = length p /\ near_point d p p') (m_verts m) (m_verts m')
}.
(** The end points of the edges [es]. *)
Definition edge_ends (es : list (point * point)) : list point := map fst es ++ map snd es.

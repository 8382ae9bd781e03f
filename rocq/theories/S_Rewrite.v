(** Rewriting a file (C111), independent of the code. *)
From Verif Require Import Base M_Conn M_Mesh S_Mesh S_FPMA S_VTK.
(** The polygons are oriented alike: no two of them have a side in the same direction. *)
Definition oriented (cells : list (list N)) : Prop := forall c c' vs vs' i j a b,
  nth_error cells c = Some vs -> nth_error cells c' = Some vs' -> side vs i a b -> side vs' j a b -> c = c'.
(** Every cell of the planar mesh is a polygon that runs along its first edge and along the edges it shares with other cells if it is their
    left cell, and against them if it is not. *)
Definition left_on_left {V} (m : Mesh V) : Prop := forall c es, ring m c es -> exists vs, bounds (edges2 m) es vs /\
  forall e f a b, In e es -> nth_error es 0 = Some e \/ (exists c' es', c' <> c /\ ring m c' es' /\ In e es') ->
    nth_error (m_faces m) (N.to_nat e) = Some f -> f_subs f = [a; b] ->
    exists i, if (cellLeft (bc (f_conn f)) =? c)%N then side vs i a b else side vs i b a.
(** No polygon has the first side of a later one in the same direction. *)
Definition starts_fresh (cells : list (list N)) : Prop := forall c c' vs vs' j a b r,
  c' < c -> nth_error cells c = Some vs -> nth_error cells c' = Some vs' -> vs = a :: b :: r -> ~ side vs' j a b.

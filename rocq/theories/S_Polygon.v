(** Polygons and closed surfaces: textbook notions, independent of the code. *)
From Coq Require Import Reals List NArith Permutation.
From Verif Require Import Base M_Conn M_Mesh S_Mesh S_Vec S_Geom.
Import ListNotations.
Local Open Scope R_scope.

(** The directed edges v0 -> v1 -> ... -> v(n-1) -> v0 of the closed polygon with the vertices [vs]. *)
Fixpoint path_edges (p : point) (l : list point) : list (point * point) :=
  match l with [] => [] | q :: r => (p, q) :: path_edges q r end.
Definition cycle_edges (vs : list point) : list (point * point) :=
  match vs with [] => [] | v :: r => path_edges v (r ++ [v]) end.
(** Signed area of a planar polygon (shoelace formula): positive when counterclockwise. *)
Definition shoelace (vs : list point) : R :=
  Rsum (map (fun e => px (fst e) * py (snd e) - px (snd e) * py (fst e)) (cycle_edges vs)) / 2.
(** [traces es ds]: the directed edges [ds] are the segments [es], in any order, each in one of its two directions. *)
Definition rev_edge (e : point * point) : point * point := (snd e, fst e).
Definition traces (es ds : list (point * point)) : Prop :=
  exists ds', Permutation ds ds' /\ Forall2 (fun e d => d = e \/ d = rev_edge e) es ds'.

(** [plane_dist x c a b h]: h is the distance of the point x from a plane through c, a, b (the plane is unique when the points
    are not collinear). *)
Definition plane_dist (x c a b : point) (h : R) : Prop :=
  exists n, length n = 3%nat /\ sprod n n = 1 /\ sprod n a = sprod n c /\ sprod n b = sprod n c /\
            h = Rabs (sprod n x - sprod n c).
(** A polyhedron given by its faces, each a closed polygon (vertex cycle) in space: closed when every directed edge
    occurs as often as its reverse, i.e. neighbouring faces run through their common edge in opposite directions. *)
Definition closed_surface (faces : list (list point)) : Prop :=
  Permutation (flat_map cycle_edges faces) (map rev_edge (flat_map cycle_edges faces)).
(** Signed volume: every face cut into triangles from its first vertex, joined with the origin. *)
Definition face_fan (vs : list point) : R :=
  match vs with [] => 0 | v :: _ => Rsum (map (fun e => vol6 [0; 0; 0] v (fst e) (snd e)) (cycle_edges vs)) end.
Definition poly_volume (faces : list (list point)) : R := Rsum (map face_fan faces) / 6.
(** c is a convex combination of the points ps of the space. *)
Definition in_hull (ps : list point) (c : point) : Prop :=
  length c = 3%nat /\
  exists ws, length ws = length ps /\ (forall w, In w ws -> 0 <= w) /\ Rsum ws = 1 /\
    forall i, (i < 3)%nat -> nth i c 0 = Rsum (map (fun wp => fst wp * nth i (snd wp) 0) (combine ws ps)).
(** The face f of the mesh with the centre c is the planar polygon with the vertex cycle vs. *)
Definition face_poly (m : Mesh point) (fc : list point) (f : N) (p : point * list point) : Prop :=
  nth_error fc (N.to_nat f) = Some (fst p) /\ coplanar (fst p :: snd p) /\
  exists face es, nth_error (m_faces m) (N.to_nat f) = Some face /\
    Forall2 (fun e ab => edge_points m e (fst ab) (snd ab)) (f_subs face) es /\ traces es (cycle_edges (snd p)).


(** Convex cells: textbook notions, independent of the code (C77, C78). *)
From Coq Require Import Reals List NArith.
From Verif Require Import Base M_Conn M_Mesh S_Mesh S_Vec S_Geom S_Polygon S_Flux.
Import ListNotations.
Local Open Scope R_scope.

(** A convex polygon of the plane, counterclockwise: all vertices are on the left of (or on) the line through each side, not all on
    the line. *)
Definition convex_ccw (vs : list point) : Prop :=
  forall e, In e (cycle_edges vs) ->
    (forall v, In v vs -> 0 <= area2 v (fst e) (snd e)) /\ exists v, In v vs /\ 0 < area2 v (fst e) (snd e).

(** A planar mesh whose cell number i is the convex polygon [poly i] and whose edges run counterclockwise along their left cell and
    clockwise along their right cell. *)
Record convex_mesh2 (m : Mesh point) (poly : N -> list point) : Prop := {
  cx2_geo : geo_mesh m;
  cx2_dim : m_dim m = 2%nat;
  cx2_sides : sides_match m;
  cx2_cell : forall i, is_cell m i = true -> convex_ccw (poly i) /\
    exists fs es, ring m i fs /\ Forall2 (fun f e => edge_points m f (fst e) (snd e)) fs es /\ traces es (cycle_edges (poly i));
  cx2_edge : forall f face a b, nth_error (m_faces m) (N.to_nat f) = Some face -> edge_points m f a b ->
    (is_cell m (cellLeft (bc (f_conn face))) = true -> In (a, b) (cycle_edges (poly (cellLeft (bc (f_conn face)))))) /\
    (is_cell m (cellRight (bc (f_conn face))) = true -> In (b, a) (cycle_edges (poly (cellRight (bc (f_conn face)))))) /\
    (is_cell m (cellLeft (bc (f_conn face))) = true \/ is_cell m (cellRight (bc (f_conn face))) = true)
}.

(** A convex polyhedron given by its faces, each a vertex cycle: the surface is closed; every face lies in a plane n.v = k, all the
    vertices of the polyhedron are on the side n.v <= k of it, not all in the plane; and seen from the outside (from where n points
    to) the face is a convex polygon, counterclockwise: all its vertices are on the left of (or on) each of its sides, not all on the side. *)
Definition convex_face (n : point) (vs : list point) : Prop :=
  forall e, In e (cycle_edges vs) -> (forall q, In q vs -> 0 <= triple n (diff (snd e) (fst e)) (diff q (fst e))) /\
    exists q, In q vs /\ 0 < triple n (diff (snd e) (fst e)) (diff q (fst e)).
Definition convex_solid (faces : list (list point)) : Prop :=
  closed_surface faces /\
  forall vs, In vs faces -> vs <> [] /\ exists n k, length n = 3%nat /\ (forall v, In v vs -> sprod n v = k) /\
    (forall ws v, In ws faces -> In v ws -> sprod n v <= k) /\ (exists ws v, In ws faces /\ In v ws /\ sprod n v < k) /\
    convex_face n vs.

(** A spatial mesh whose cell number i is a convex polyhedron; [poly i f] is the vertex cycle of its face f, seen from outside of the
    cell. The two cells of a face see its cycle in opposite directions. *)
Record convex_mesh3 (m : Mesh point) (poly : N -> N -> list point) : Prop := {
  cx3_geo : geo_mesh m;
  cx3_dim : m_dim m = 3%nat;
  cx3_faces : no_empty m;
  cx3_edges : forall e a b, edge_points m e a b -> a <> b;
  cx3_match : sides_match m;
  cx3_size : (N.of_nat (length (m_cells m)) <= 2 ^ 63)%N;
  cx3_cell : forall i fs, ring m i fs -> convex_solid (map (poly i) fs) /\
    forall f face, In f fs -> nth_error (m_faces m) (N.to_nat f) = Some face ->
      exists es, Forall2 (fun e ab => edge_points m e (fst ab) (snd ab)) (f_subs face) es /\ traces es (cycle_edges (poly i f));
  cx3_side : forall face, In face (m_faces m) -> is_cell m (cellLeft (bc (f_conn face))) = true \/
    (2 ^ 63 <= cellLeft (bc (f_conn face)) < 2 ^ 64)%N /\ is_cell m (cellRight (bc (f_conn face))) = true;
  cx3_inner : forall f face, nth_error (m_faces m) (N.to_nat f) = Some face ->
    let l := cellLeft (bc (f_conn face)) in let r := cellRight (bc (f_conn face)) in
    is_cell m l = true -> is_cell m r = true -> forall e, In e (cycle_edges (poly l f)) -> In (rev_edge e) (cycle_edges (poly r f))
}.

(** c lies in the relative interior of the convex hull of the points vs of the space: every half-space that contains vs contains c,
    and contains it strictly if it contains one of vs strictly. *)
Definition rel_inside (vs : list point) (c : point) : Prop :=
  length c = 3%nat /\ forall al be ga de : R, (forall v, In v vs -> 0 <= al * px v + be * py v + ga * pz v + de) ->
    0 <= al * px c + be * py c + ga * pz c + de /\
    ((exists v, In v vs /\ 0 < al * px v + be * py v + ga * pz v + de) -> 0 < al * px c + be * py c + ga * pz c + de).

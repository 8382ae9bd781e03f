(** Specification vocabulary of the finite-volume identities (C73-C76): sides of a face and fluxes through faces. *)
From Coq Require Import Reals List NArith.
From Verif Require Import Base M_Conn M_Mesh S_Mesh S_Vec S_Geom S_Polygon.
Import ListNotations.
Local Open Scope R_scope.

Section Flux.
Context {V : Type}.
Implicit Type m : Mesh V.

(** The index [i] denotes a cell of the mesh (neither the invalid index nor a boundary cell). *)
Definition is_cell m (i : N) : bool := (i <? N.of_nat (length (m_cells m)))%N.

(** The direction in which face [f] leaves cell [c], when the face is taken to point from its left to its right cell:
    +1 for the left cell, -1 for the right cell, 0 for any other cell. *)
Definition side_sign m (f c : N) : R :=
  match nth_error (m_faces m) (N.to_nat f) with
  | Some face => (if N.eqb (cellLeft (bc (f_conn face))) c then 1 else 0) -
                 (if N.eqb (cellRight (bc (f_conn face))) c then 1 else 0)
  | None => 0
  end.

(** The direction in which face [f] leaves the mesh: 0 for a face between two cells, +1 when only its left
    side is a cell, -1 when only its right side is a cell. *)
Definition boundary_sign m (f : N) : R :=
  match nth_error (m_faces m) (N.to_nat f) with
  | Some face => (if is_cell m (cellLeft (bc (f_conn face))) then 1 else 0) -
                 (if is_cell m (cellRight (bc (f_conn face))) then 1 else 0)
  | None => 0
  end.

(** The two records of "face f bounds cell c" agree: a face that names c as its left or right cell is met by the
    boundary walk of c. (The converse holds in every well formed mesh.) *)
Definition sides_match m : Prop :=
  forall c fs f face, ring m c fs -> nth_error (m_faces m) (N.to_nat f) = Some face ->
    cellLeft (bc (f_conn face)) = c \/ cellRight (bc (f_conn face)) = c -> In f fs.

End Flux.

(** Planar meshes. Cell [i] is a polygon that is star-shaped around its centre [c] = [cc] at i: seen from c, all its edges turn in
    the same direction along the polygon. *)
Definition star_cell2 (m : Mesh point) (cc : list point) (i : N) : Prop :=
  exists c fs es vs, nth_error cc (N.to_nat i) = Some c /\ length c = 2%nat /\ ring m i fs /\
    Forall2 (fun f e => edge_points m f (fst e) (snd e)) fs es /\ traces es (cycle_edges vs) /\
    ((forall e, In e (cycle_edges vs) -> 0 <= area2 c (fst e) (snd e)) \/
     (forall e, In e (cycle_edges vs) -> area2 c (fst e) (snd e) <= 0)).

(** Every edge runs counterclockwise around the centre of its left cell and clockwise around the centre of its right cell. *)
Definition edges_ccw_left (m : Mesh point) (cc : list point) : Prop :=
  forall f face a b, nth_error (m_faces m) (N.to_nat f) = Some face -> edge_points m f a b -> a <> b /\
    (forall x, nth_error cc (N.to_nat (cellLeft (bc (f_conn face)))) = Some x -> 0 < area2 x a b) /\
    (forall x, nth_error cc (N.to_nat (cellRight (bc (f_conn face)))) = Some x -> area2 x a b < 0).

(** A point of the edge [f]: one of its ends or its midpoint. *)
Definition on_edge (m : Mesh point) (f : N) (p : point) : Prop :=
  forall a b, edge_points m f a b -> p = a \/ p = b \/ is_mean 2 [a; b] p.

(** Spatial meshes with cell centres [cc] and face centres [fc], without degenerate elements: edges have two different ends, every
    face has a cell on a side, and the centre of the cell that decides the direction of its normal is not in the plane of the face
    (given by the first edge and the face centre). *)
Record regular3 (m : Mesh point) (cc fc : list point) : Prop := {
  r3_geo : geo_mesh m;
  r3_faces : no_empty m;
  r3_dim : m_dim m = 3%nat;
  r3_cc : length cc = length (m_cells m) /\ forall p, In p cc -> length p = 3%nat;
  r3_fc : length fc = length (m_faces m) /\ forall p, In p fc -> length p = 3%nat;
  r3_edges : forall e a b, edge_points m e a b -> a <> b;
  r3_side : forall face, In face (m_faces m) -> exists x l, side_center cc face x l;
  r3_plane : forall f face x l e0 es a b c, nth_error (m_faces m) (N.to_nat f) = Some face -> side_center cc face x l ->
    f_subs face = e0 :: es -> edge_points m e0 a b -> nth_error fc (N.to_nat f) = Some c -> vol6 x a b c <> 0
}.

(** Cell [i] is a closed polyhedron with the planar face polygons [ps], star-shaped: from the cell centre and the face centres, all
    the tetrahedra (cell centre, face centre, edge) have the same orientation along the surface. *)
Definition star_cell3 (m : Mesh point) (cc fc : list point) (i : N) : Prop :=
  exists x fs ps, nth_error cc (N.to_nat i) = Some x /\ ring m i fs /\ Forall2 (face_poly m fc) fs ps /\ closed_surface (map snd ps) /\
    ((forall p e, In p ps -> In e (cycle_edges (snd p)) -> 0 <= vol6 x (fst p) (fst e) (snd e)) \/
     (forall p e, In p ps -> In e (cycle_edges (snd p)) -> vol6 x (fst p) (fst e) (snd e) <= 0)).

(** The centres of the two cells of an inner face lie on different sides of the face. *)
Definition centers_apart (m : Mesh point) (cc fc : list point) : Prop :=
  forall f face e0 es a b c xl xr, nth_error (m_faces m) (N.to_nat f) = Some face -> f_subs face = e0 :: es -> edge_points m e0 a b ->
    nth_error fc (N.to_nat f) = Some c ->
    nth_error cc (N.to_nat (cellLeft (bc (f_conn face)))) = Some xl -> nth_error cc (N.to_nat (cellRight (bc (f_conn face)))) = Some xr ->
    vol6 xl a b c * vol6 xr a b c < 0.

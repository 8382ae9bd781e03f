(** Textbook geometry over real coordinates, independent of the code: points are lists of coordinates. *)
From Coq Require Import Reals List NArith.
From Verif Require Import Base M_Conn M_Mesh S_Mesh S_Vec.
Import ListNotations.
Local Open Scope R_scope.

Notation point := (list R).
Fixpoint Rsum (l : list R) : R := match l with [] => 0 | x :: r => x + Rsum r end.
(** p - q, coordinatewise; distance. *)
Fixpoint diff (p q : point) : point :=
  match p, q with x :: p', y :: q' => (x - y) :: diff p' q' | _, _ => [] end.
Definition dist (p q : point) : R := sqrt (sprod (diff p q) (diff p q)).
Definition px (p : point) := nth 0 p 0.
Definition py (p : point) := nth 1 p 0.
Definition pz (p : point) := nth 2 p 0.

(** Twice the signed area of the planar triangle p, a, b: positive when p -> a -> b turns left. *)
Definition area2 (p a b : point) : R := det2 (px a - px p) (py a - py p) (px b - px p) (py b - py p).
(** Area of the triangle p, a, b in a space of any dimension: half the root of the Gram determinant. *)
Definition tri_area (p a b : point) : R :=
  let u := diff a p in let v := diff b p in
  sqrt (sprod u u * sprod v v - sprod u v * sprod u v) / 2.
(** Six times the signed volume of the tetrahedron p, a, b, c. *)
Definition vol6 (p a b c : point) : R :=
  det3 (px a - px p) (py a - py p) (pz a - pz p) (px b - px p) (py b - py p) (pz b - pz p) (px c - px p) (py c - py p) (pz c - pz p).
(** Determinant of three vectors of the space (their triple product). *)
Definition triple (u v w : point) : R := det3 (px u) (py u) (pz u) (px v) (py v) (pz v) (px w) (py w) (pz w).

(** The edge [e] of mesh [m] goes from point [a] to point [b]. *)
Definition edge_points (m : Mesh point) (e : N) (a b : point) : Prop :=
  exists i j, subs m 1 e = Ok [i; j] /\
    nth_error (m_verts m) (N.to_nat i) = Some a /\ nth_error (m_verts m) (N.to_nat j) = Some b.

(** A mesh with coordinates: well formed, every vertex has as many coordinates as the mesh has dimensions. *)
Record geo_mesh (m : Mesh point) : Prop := {
  geo_wf : wf_mesh m;
  geo_pts : forall p, In p (m_verts m) -> length p = m_dim m
}.

(** [is_mean d ps c]: c is the arithmetic mean of the points ps. *)
Definition is_mean (d : nat) (ps : list point) (c : point) : Prop :=
  length c = d /\
  forall i, (i < d)%nat -> nth i c 0 = Rsum (map (fun p => nth i p 0) ps) / INR (length ps).

(** The mesh with every vertex moved by the vector [t]. *)
Fixpoint shift (t p : point) : point :=
  match t, p with x :: t', y :: p' => (y + x) :: shift t' p' | _, _ => [] end.
Definition translate (t : point) (m : Mesh point) : Mesh point :=
  mkMesh (m_dim m) (map (shift t) (m_verts m)) (m_mid m) (m_faces m) (m_cells m) (m_bcells m).

(** Centre tables: [cs] lists the tables of dimensions 1, 2, ..., [at_ cs k i] is the entry of element i of
    dimension k. *)
Definition at_ {A} (cs : list (list A)) (k : nat) (i : N) : option A :=
  match nth_error cs (k - 1) with Some tab => nth_error tab (N.to_nat i) | None => None end.

(** [is_centroid d tris c]: c is the centre of gravity of the triangles, weighted by their areas. *)
Definition tri_S (t : point * point * point) : R := tri_area (fst (fst t)) (snd (fst t)) (snd t).
Definition is_centroid (d : nat) (tris : list (point * point * point)) (c : point) : Prop :=
  length c = d /\
  forall i, (i < d)%nat ->
    nth i c 0 * Rsum (map tri_S tris) =
    Rsum (map (fun t => tri_S t * ((nth i (fst (fst t)) 0 + nth i (snd (fst t)) 0 + nth i (snd t) 0) / 3)) tris).

(** Every element of dimension two and more has a boundary. *)
Definition no_empty {V} (m : Mesh V) : Prop :=
  forall k i js, (2 <= k < m_dim m)%nat -> subs m k i = Ok js -> js <> [].

(** What the centre tables must satisfy: one table per dimension, with an entry for every element; an edge has
    its midpoint, any other element the mean of the centres of its boundary elements. *)
Record centers_spec (m : Mesh point) (cs : list (list point)) : Prop := {
  cs_len : length cs = m_dim m;
  cs_tab : forall k tab, nth_error cs k = Some tab -> length tab = n_elems m (S k) /\ forall p, In p tab -> length p = m_dim m;
  cs_edge : forall e a b c, edge_points m e a b -> at_ cs 1 e = Some c -> is_mean (m_dim m) [a; b] c;
  cs_mean : forall k i js c, (2 <= k <= m_dim m)%nat -> children m k i js -> at_ cs k i = Some c ->
    exists ps, Forall2 (fun j p => at_ cs (k - 1) j = Some p) js ps /\ is_mean (m_dim m) ps c
}.


(** [outward e c a b x]: e is the unit normal of the plane through c, a, b that points away from x. *)
Definition outward (e c a b x : point) : Prop :=
  length e = 3%nat /\ sprod e e = 1 /\ sprod e a = sprod e c /\ sprod e b = sprod e c /\ sprod e x < sprod e c.
(** The points [ps] lie in a common plane. *)
Definition coplanar (ps : list point) : Prop :=
  exists w k, length w = 3%nat /\ sprod w w <> 0 /\ forall p, In p ps -> sprod w p = k.
(** The cell whose centre decides the direction of the normal of a face: the left one (true) unless it is
    missing (invalid or boundary index), then the right one (false). *)
Definition side_center (cc : list point) (face : Face) (x : point) (left : bool) : Prop :=
  if left then (cellLeft (bc (f_conn face)) < 2 ^ 63)%N /\ nth_error cc (N.to_nat (cellLeft (bc (f_conn face)))) = Some x
  else (2 ^ 63 <= cellLeft (bc (f_conn face)) < 2 ^ 64)%N /\
       (cellRight (bc (f_conn face)) < N.of_nat (length cc))%N /\ nth_error cc (N.to_nat (cellRight (bc (f_conn face)))) = Some x.

(** The point that stands for one side of a face with centre [c]: the centre of the cell, or, when the side is
    missing, the centre of the boundary cell (if the mesh has boundary cells) or of the face itself. *)
Inductive side_point (cc bcc : list point) (with_bcells : bool) (c : point) : N -> point -> Prop :=
| sp_cell i p : (i < 2 ^ 63)%N -> nth_error cc (N.to_nat i) = Some p -> side_point cc bcc with_bcells c i p
| sp_face : with_bcells = false -> side_point cc bcc with_bcells c INVALID c
| sp_bcell j p : with_bcells = true -> (j < 2 ^ 63)%N -> nth_error bcc (N.to_nat j) = Some p ->
    side_point cc bcc with_bcells c (2 ^ 63 + j) p.

(** Similarity transformations of the plane and of spaces of any dimension: textbook vocabulary, independent of the code. *)
From Coq Require Import Reals List NArith.
From Verif Require Import Base M_Conn M_Mesh S_Mesh S_Vec S_Geom.
Import ListNotations.
Local Open Scope R_scope.

(** A map of the points of [d] coordinates that multiplies all distances by [s]: translations, rotations, reflections, scalings and what is composed
    of them. *)
Record similarity (d : nat) (s : R) (f : point -> point) : Prop := {
  sim_len : forall p, length p = d -> length (f p) = d;
  sim_dist : forall p q, length p = d -> length q = d -> dist (f p) (f q) = s * dist p q
}.
(** The mesh with every vertex moved by [f]. *)
Definition image (f : point -> point) (m : Mesh point) : Mesh point :=
  mkMesh (m_dim m) (map f (m_verts m)) (m_mid m) (m_faces m) (m_cells m) (m_bcells m).
(** The arrow from any point p to p + v becomes an arrow along [c] w. *)
Definition carried (d : nat) (f : point -> point) (c : R) (v w : point) : Prop :=
  length v = d /\ length w = d /\ forall p, length p = d -> diff (f (shift v p)) (f p) = map (Rmult c) w.
(** The orientation of triangles (tetrahedra) is kept, sg = 1, or reversed, sg = -1. *)
Definition orient2 (s sg : R) (f : point -> point) : Prop :=
  forall p a b, length p = 2%nat -> length a = 2%nat -> length b = 2%nat -> area2 (f p) (f a) (f b) = sg * (s * s) * area2 p a b.
Definition orient3 (s sg : R) (f : point -> point) : Prop :=
  forall p a b c, length p = 3%nat -> length a = 3%nat -> length b = 3%nat -> length c = 3%nat ->
    vol6 (f p) (f a) (f b) (f c) = sg * (s * s * s) * vol6 p a b c.
(** Both computations return, and the results are related, or both throw, or both are undefined. *)
Definition both {A B} (Q : A -> B -> Prop) (x : outcome A) (y : outcome B) : Prop :=
  match x, y with
  | Ok a, Ok b => Q a b
  | Throw, Throw | UB, UB | Diverge, Diverge => True
  | _, _ => False
  end.
(** Every face is spread out: the triangle of its centre (the mean of the edge midpoints) and one of its edges has an area. *)
Definition spread (m : Mesh point) : Prop :=
  forall i js ps c, children m 2 i js ->
    Forall2 (fun e p => exists a b, edge_points m e a b /\ is_mean (m_dim m) [a; b] p) js ps -> is_mean (m_dim m) ps c ->
    exists e a b, In e js /\ edge_points m e a b /\ tri_area c a b <> 0.

(** The tessellated VTK export of a mesh of convex polyhedra (C99): vocabulary. *)
From Coq Require Import Reals List NArith.
From Verif Require Import Base M_Conn M_Mesh S_Mesh S_Vec S_Geom S_Polygon S_Convex S_Tess.
Import ListNotations.
Local Open Scope nat_scope.

(** Simple polyhedra: no vertex is passed twice in the cycle of a face, no side is passed twice in the same direction on the surface of
    a cell. *)
Definition simple_cells {V} (m : Mesh V) (poly : N -> N -> list point) : Prop :=
  forall c fs, ring m c fs -> (forall f, In f fs -> NoDup (poly c f)) /\ NoDup (flat_map cycle_edges (map (poly c) fs)).

(** The centres lie inside: the one of a cell inside the cell, the one of a face inside the face. *)
Definition centres_inside {V} (m : Mesh V) (poly : N -> N -> list point) (xc xf : N -> point) : Prop :=
  forall c fs, ring m c fs -> rel_inside (concat (map (poly c) fs)) (xc c) /\ forall f, In f fs -> rel_inside (poly c f) (xf f).

(** No two of the centres have the same key. *)
Record centres_told {V K} (m : Mesh V) (ccenter fcenter : N -> V) (key : V -> K) : Prop := {
  ct_cells : forall c c', (c < N.of_nat (length (m_cells m)))%N -> (c' < N.of_nat (length (m_cells m)))%N ->
    key (ccenter c) = key (ccenter c') -> c = c';
  ct_faces : forall f f', (f < N.of_nat (length (m_faces m)))%N -> (f' < N.of_nat (length (m_faces m)))%N ->
    key (fcenter f) = key (fcenter f') -> f = f';
  ct_apart : forall c f, (c < N.of_nat (length (m_cells m)))%N -> (f < N.of_nat (length (m_faces m)))%N -> key (ccenter c) <> key (fcenter f)
}.

(** The sum of the values that belong to cell [c]; [srcs] names the cell of each value. *)
Definition sum_of (c : N) (srcs : list N) (vals : list R) : R :=
  Rsum (map snd (filter (fun p => N.eqb (fst p) c) (combine srcs vals))).
(** The sum of the products. *)
Definition weighted (xs ys : list R) : R := Rsum (map (fun p => (fst p * snd p)%R) (combine xs ys)).

(** Specification of the textbook notions about real vectors (lists of reals), without the code's
    definitions. *)
From Coq Require Import Reals List.
Import ListNotations.
Local Open Scope R_scope.

(** Scalar product sum_i x_i y_i, linear combination, span. *)
Fixpoint sprod (u v : list R) : R :=
  match u, v with x :: u', y :: v' => x * y + sprod u' v' | _, _ => 0 end.

(** x = y + a w, coordinatewise *)
Definition is_axpy (x y : list R) (a : R) (w : list R) : Prop :=
  length x = length y /\ length x = length w /\
  forall i, (i < length x)%nat -> nth i x 0 = nth i y 0 + a * nth i w 0.

(** [in_span d vs x]: x is a linear combination of the vectors [vs] of dimension [d]. *)
Inductive in_span (d : nat) (vs : list (list R)) : list R -> Prop :=
| span_zero : in_span d vs (repeat 0 d)
| span_step x y a w : in_span d vs y -> In w vs -> is_axpy x y a w -> in_span d vs x.

(** No vector is a combination of the preceding ones. *)
Definition lin_indep (d : nat) (vs : list (list R)) : Prop :=
  forall i v, nth_error vs i = Some v -> ~ in_span d (firstn i vs) v.

Definition orthogonal_family (es : list (list R)) : Prop :=
  forall i j u v, i <> j -> nth_error es i = Some u -> nth_error es j = Some v -> sprod u v = 0.
Definition unit_family (es : list (list R)) : Prop := forall u, In u es -> sprod u u = 1.

(** Determinants and cross products by their formulas. *)
Definition det2 (a1 a2 b1 b2 : R) : R := a1 * b2 - a2 * b1.
Definition det3 (a1 a2 a3 b1 b2 b3 c1 c2 c3 : R) : R :=
  a1 * (b2 * c3 - b3 * c2) - a2 * (b1 * c3 - b3 * c1) + a3 * (b1 * c2 - b2 * c1).

(** The standard model of floating point arithmetic. *)
From Coq Require Import Reals.
Local Open Scope R_scope.

(** Rounding has the relative error [u] (the unit roundoff: 2^-53 for double, 2^-24 for float). *)
Definition rounds (rnd : R -> R) (u : R) : Prop := 0 <= u < 1 /\ forall x, Rabs (rnd x - x) <= u * Rabs x.
(** The error bound of k roundings: k u / (1 - k u), for k u < 1. *)
Definition gam (u : R) (k : nat) : R := INR k * u / (1 - INR k * u).
Definition few (u : R) (k : nat) : Prop := INR k * u < 1.

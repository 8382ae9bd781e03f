(** Real = double (float): the arithmetic of M_Vec with every operation rounded. The geometric functions of M_Vec and M_Geom are generic in [Num]; here
    they run on real numbers whose sums, differences, products, quotients and square roots are rounded by [rnd]; a change of sign, the absolute value and comparisons are exact
    (IEEE 754). Overflow, underflow and NaN are not modelled; fused multiply-add and extended intermediate precision are not used. *)
From Coq Require Import Reals.
From Verif Require Import Base M_Vec.
Local Open Scope R_scope.

(** Vertex.h, InlineArrayOperations.h and the files cited in M_Geom with Real = double, float. *)
Definition numFl (rnd : R -> R) : Num :=
  mkNum R 0 1 (fun a b => rnd (a + b)) (fun a b => rnd (a - b)) (fun a b => rnd (a * b)) (fun a b => rnd (a / b)) Ropp (fun a => rnd (sqrt a)) Rabs Rgtb Reqb.

(** Specification vocabulary for numbers in files. *)
From Coq Require Import QArith Qabs.
From Verif Require Import Base.
(** Numbers with at most six significant decimal digits. *)
Definition six_digits (y : Q) : Prop := exists d k : Z, (Z.abs d < 1000000)%Z /\ (y == inject_Z d * (10 # 1) ^ k)%Q.
(** y is a number of at most six digits, none is nearer to x. *)
Definition nearest_six (x y : Q) : Prop := six_digits y /\ forall z, six_digits z -> (Qabs (y - x) <= Qabs (z - x))%Q.

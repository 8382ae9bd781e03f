(** Specification vocabulary for mesh files as characters. *)
From Coq Require Import QArith Qabs.
From Verif Require Import Base M_Stream M_FileText S_Stream.
(** The coordinate type is at least as precise as float: the number nearest to a decimal value is off by at most 1e-7 of
    it (float: 2^-24, double: 2^-53). *)
Definition precise {C} (K : fp C) : Prop := forall q, (Qabs (val K (near K q) - q) <= (1 # 10000000) * Qabs q)%Q.
(** c' is what is left of the coordinate c after writing and reading it: the number nearest to c rounded to six decimal
    digits. *)
Definition six_digit_copy {C} (K : fp C) (c c' : C) : Prop :=
  exists q, nearest_six (val K c) q /\ (Qabs (q - val K c) <= (5 # 1000000) * Qabs (val K c))%Q /\ c' = near K q.
Definition copy3 {C} (K : fp C) (p p' : C * C * C) : Prop :=
  six_digit_copy K (fst (fst p)) (fst (fst p')) /\ six_digit_copy K (snd (fst p)) (snd (fst p')) /\ six_digit_copy K (snd p) (snd p').
Definition copy2 {C} (K : fp C) (p p' : C * C) : Prop := six_digit_copy K (fst p) (fst p') /\ six_digit_copy K (snd p) (snd p').

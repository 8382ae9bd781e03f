(** Specification vocabulary for cell data read from a file that was cut. *)
From Verif Require Import Base M_FileText S_FileText M_VTKData M_DataText S_DataText.
Local Open Scope nat_scope.

(** The first [j] values of a column. *)
Definition first_values {C} (j : nat) (d : coldata (num C)) : coldata (num C) :=
  match d with Sc l => Sc (firstn j l) | Ve l => Ve (firstn j l) end.
(** [d']: the first [j] values of [d] as they are read from a complete file, then one and the same value for all others. *)
Definition cut_copy {C} (K : fp C) (j : nat) (d d' : coldata (num C)) : Prop :=
  match d, d' with
  | Sc l, Sc l' => exists a v, Forall2 (num_copy K) (firstn j l) a /\ l' = a ++ repeat v (length l - j)
  | Ve l, Ve l' => exists a v, Forall2 (Forall2 (num_copy K)) (firstn j l) a /\ l' = a ++ repeat v (length l - j)
  | _, _ => False
  end.
(** ... and that one value is the last of the first [j]. *)
Definition last_repeated {C} (K : fp C) (j : nat) (d d' : coldata (num C)) : Prop :=
  match d, d' with
  | Sc l, Sc l' => exists a v, Forall2 (num_copy K) (firstn j l) (a ++ [v]) /\ l' = (a ++ [v]) ++ repeat v (length l - j)
  | Ve l, Ve l' => exists a v, Forall2 (Forall2 (num_copy K)) (firstn j l) (a ++ [v]) /\ l' = (a ++ [v]) ++ repeat v (length l - j)
  | _, _ => False
  end.
(** The number zero of a type. *)
Definition zero_of {C} (K : fp C) (t : nty) : num C := match t with TFl => Fl (near K (QArith_base.inject_Z 0)) | TIn => In32 0 | TUn => Un64 0 end.

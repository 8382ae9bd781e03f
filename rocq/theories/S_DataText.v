(** Specification vocabulary for cell data in VTK files on characters. *)
From Coq Require Import String Ascii QArith.
From Verif Require Import Base M_Text M_Print M_Stream M_FileText S_FileText M_VTKData M_DataText.
Local Open Scope list_scope.
Local Open Scope nat_scope.

(** The number is a value of the type. *)
Definition of_type {C} (t : nty) (v : num C) : Prop :=
  match t, v with
  | TFl, Fl _ => True
  | TIn, In32 z => (- 2 ^ 31 <= z < 2 ^ 31)%Z
  | TUn, Un64 n => (n < 2 ^ 64)%N
  | _, _ => False
  end.
(** A column of the kind [kd] with [n] values. *)
Definition of_kind {C} (n : nat) (d : coldata (num C)) (kd : mkind) : Prop :=
  match d, kd with
  | Sc vals, MS t => length vals = n /\ Forall (of_type t) vals
  | Ve vals, MV t k => length vals = n /\ Forall (fun v => length v = k /\ Forall (of_type t) v) vals
  | _, _ => False
  end.
(** What is left of a number after writing and reading it: integers are kept, floating point numbers are rounded to six decimal digits. *)
Definition num_copy {C} (K : fp C) (v v' : num C) : Prop :=
  match v, v' with Fl c, Fl c' => six_digit_copy K c c' | In32 z, In32 z' => z = z' | Un64 n, Un64 n' => n = n' | _, _ => False end.
Definition col_copy {C} (K : fp C) (d d' : coldata (num C)) : Prop :=
  match d, d' with
  | Sc l, Sc l' => Forall2 (num_copy K) l l'
  | Ve l, Ve l' => Forall2 (Forall2 (num_copy K)) l l'
  | _, _ => False
  end.

(** [p] occurs in [s]. *)
Definition occurs (p s : text) : Prop := exists a b, s = a ++ p ++ b.
(** The text contains neither keyword the reader searches for. *)
Definition no_keyword (s : text) : Prop := ~ occurs (str "SCALARS") s /\ ~ occurs (str "VECTORS") s.
(** The name of a member: a word without a keyword. *)
Definition good_name (w : text) : Prop := w <> [] /\ forallb (fun c => negb (is_space c)) w = true /\ no_keyword w.
(** The columns that can be read: scalars, and vectors with as many components as the mesh has dimensions, in 2D floating point ones only. *)
Definition readable_kind (dim : nat) (kd : mkind) : Prop :=
  match kd with MS _ => True | MV t k => k = dim /\ (dim = 2 -> t = TFl) end.

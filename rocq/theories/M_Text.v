(** Textual keys of edges and faces used by the mesh readers, and std::to_string for indices. *)
From Coq Require Import String Ascii.
From Coq Require Import DecimalString DecimalN.
From Verif Require Import Base.
Local Open Scope N_scope.
Local Open Scope string_scope.

(** std::to_string(IndexType): decimal digits without leading zeros, "0" for zero. *)
Definition to_string (n : N) : string := NilEmpty.string_of_uint (N.to_uint n).

(** FPMAMeshReader.h:79, VTKMeshReader.h:96 and 347: the key of an edge. *)
Definition edge_key (iA iB : N) : string :=
  if (iA <? iB)%N then to_string iA ++ ";" ++ to_string iB else to_string iB ++ ";" ++ to_string iA.

(** std::sort on indices (VTKMeshReader.h:373). The result of sorting integers is unique, the
    algorithm is immaterial: insertion sort. *)
Fixpoint sort_insert (x : N) (l : list N) : list N :=
  match l with
  | [] => [x]
  | y :: r => if (x <=? y)%N then x :: l else y :: sort_insert x r
  end.
Definition sortN (l : list N) : list N := fold_right sort_insert [] l.

(** VTKMeshReader.h:369-378: the key of a face given by its edges. *)
Definition face_key (edges : list N) : string :=
  fold_left (fun key e => key ++ (to_string e ++ ";")) (sortN edges) "".

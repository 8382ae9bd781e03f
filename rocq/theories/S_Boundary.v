(** Specification vocabulary for C06: sides of faces. *)
From Verif Require Import Base M_Index M_Conn M_Mesh.

Inductive sideOf := SLeft | SRight.

Definition cellOn (f : Face) (s : sideOf) : N :=
  match s with SLeft => cellLeft (bc (f_conn f)) | SRight => cellRight (bc (f_conn f)) end.

(** The cell recorded on side [s] of face number [i]. *)
Definition side {V} (m : Mesh V) (i : nat) (s : sideOf) : option N :=
  option_map (fun f => cellOn f s) (nth_error (m_faces m) i).

(** The sides without a cell, faces in index order, left before right. *)
Fixpoint missing_from (i : nat) (fs : list Face) : list (nat * sideOf) :=
  match fs with
  | [] => []
  | f :: r =>
      (if N.eqb (cellOn f SLeft) INVALID then [(i, SLeft)] else []) ++
      (if N.eqb (cellOn f SRight) INVALID then [(i, SRight)] else []) ++
      missing_from (S i) r
  end.
Definition missing_sides {V} (m : Mesh V) : list (nat * sideOf) := missing_from 0 (m_faces m).

(** The code of the boundary cell number [k]. *)
Definition bcode (k : nat) : N := makeBoundaryIndex 64 (N.of_nat k).

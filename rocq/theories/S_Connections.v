(** Specification vocabulary for connections and neighbourhoods. *)
From Verif Require Import Base M_Mesh S_Mesh.

(** Elements [i] of dimension [s] and [j] of dimension [t] of the mesh are incident
    (whichever of the two has the larger dimension). *)
Definition connected {V} (m : Mesh V) (s t : nat) (i j : N) : Prop :=
  if t <=? s then (i < N.of_nat (n_elems m s))%N /\ incident m s t i j
  else (j < N.of_nat (n_elems m t))%N /\ incident m t s j i.

(** Strictly increasing list. *)
Fixpoint increasing (l : list N) : Prop :=
  match l with
  | [] => True
  | a :: r => (forall b, In b r -> (a < b)%N) /\ increasing r
  end.

(** [l] holds exactly the elements with property [P]. *)
Definition exactly (l : list N) (P : N -> Prop) : Prop := forall x, In x l <-> P x.

(** Element [k] of dimension [c] shares an element of dimension [b] with element [i] of dimension
    [a]; an element is not its own neighbour. *)
Definition neighbor_of {V} (m : Mesh V) (a b c : nat) (i k : N) : Prop :=
  (a = c -> k <> i) /\ exists j, connected m a b i j /\ connected m b c j k.

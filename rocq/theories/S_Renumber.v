(** Other numberings of the elements of a mesh: the vocabulary of C107, independent of the code. *)
From Verif Require Import Base M_Conn M_Mesh.
Open Scope N_scope.

(** [p] gives the numbers 0, ..., n-1 new values among themselves and leaves all others alone. *)
Record numbering (n : nat) (p : N -> N) : Prop := {
  nb_lt : forall i, i < N.of_nat n -> p i < N.of_nat n;
  nb_inj : forall i j, p i = p j -> i = j;
  nb_out : forall i, N.of_nat n <= i -> p i = i
}.
(** The entry for [i] in one table is the entry for [p i] in the other. *)
Definition shuffled {A} (p : N -> N) (l l' : list A) : Prop :=
  length l' = length l /\ forall i, i < N.of_nat (length l) -> nth_error l' (N.to_nat (p i)) = nth_error l (N.to_nat i).
(** What is stored with a face, with other numbers for its boundary, its cells, and the faces. *)
Definition rename_face (pe pf pc : N -> N) (f : Face) : Face :=
  mkFace (map pe (f_subs f))
    (mkBC (mkCC (pc (cellLeft (bc (f_conn f)))) (pc (cellRight (bc (f_conn f))))) (pf (nextL (f_conn f))) (pf (nextR (f_conn f)))).
(** [m'] is [m] with other numbers: [p k i] is the number in [m'] of element i of dimension k of [m]. Boundary cells keep theirs. *)
Record renumbered {V} (p : nat -> N -> N) (m m' : Mesh V) : Prop := {
  rn_dim : m_dim m' = m_dim m;
  rn_num : forall k, (k <= m_dim m)%nat -> numbering (n_elems m k) (p k) /\ N.of_nat (n_elems m k) <= 2 ^ 63;
  rn_verts : shuffled (p 0%nat) (m_verts m) (m_verts m');
  rn_levels : length (m_mid m') = length (m_mid m);
  rn_mid : forall k, (1 <= k)%nat -> (k + 2 <= m_dim m)%nat ->
    shuffled (p k) (map (map (p (k - 1)%nat)) (nth (k - 1) (m_mid m) [])) (nth (k - 1) (m_mid m') []);
  rn_faces : shuffled (p (m_dim m - 1)%nat) (map (rename_face (p (m_dim m - 2)%nat) (p (m_dim m - 1)%nat) (p (m_dim m))) (m_faces m)) (m_faces m');
  rn_cells : shuffled (p (m_dim m)) (map (p (m_dim m - 1)%nat) (m_cells m)) (m_cells m');
  rn_bcells : m_bcells m' = map (fun b => (fst b, p (m_dim m - 1)%nat (snd b))) (m_bcells m)
}.
(** Whatever the first computation returns, the second returns something related to it. *)
Definition ret {A B} (Q : A -> B -> Prop) (x : outcome A) (y : outcome B) : Prop := forall a, x = Ok a -> exists b, y = Ok b /\ Q a b.

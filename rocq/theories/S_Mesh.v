(** Specification of well formed meshes and of incidence, independent of the traversal code. *)
From Verif Require Import Base M_Conn M_Mesh.

Section Spec.
Context {V : Type}.
Implicit Type m : Mesh V.

(** The successor of face [f] on the boundary of cell [c] is [g]. *)
Definition succ_face m (c f g : N) : Prop :=
  exists fc, nth_error (m_faces m) (N.to_nat f) = Some fc /\ getNextBElem (f_conn fc) c = Ok g.

(** [closed_chain m c f0 fs]: following successors through [fs] ends at [f0]. *)
Fixpoint closed_chain m (c f0 : N) (fs : list N) : Prop :=
  match fs with
  | [] => False
  | [f] => succ_face m c f f0
  | f :: ((g :: _) as r) => succ_face m c f g /\ closed_chain m c f0 r
  end.

(** The boundary of cell [c] is the cycle of pairwise distinct faces [fs], starting with the cell's
    boundary element. *)
Definition ring m (c : N) (fs : list N) : Prop :=
  exists f0 r, fs = f0 :: r /\ nth_error (m_cells m) (N.to_nat c) = Some f0 /\
  closed_chain m c f0 fs /\ NoDup fs.

(** The boundary elements of element [i] of dimension [k], in order. *)
Definition children m (k : nat) (i : N) (js : list N) : Prop :=
  if k =? m_dim m then ring m i js else subs m k i = Ok js.

(** Well formed mesh: every subelement index is in range, no element lists a subelement twice,
    edges have two vertices, every cell has a ring. *)
Record wf_mesh m : Prop := {
  wf_dim : 2 <= m_dim m;
  wf_mid : length (m_mid m) = m_dim m - 2;
  wf_subs : forall k i js, 1 <= k < m_dim m -> subs m k i = Ok js ->
            NoDup js /\ (forall j, In j js -> (j < N.of_nat (n_elems m (k - 1)))%N) /\
            (k = 1 -> length js = 2);
  wf_ring : forall c, (c < N.of_nat (length (m_cells m)))%N -> exists fs, ring m c fs
}.

(** [chain m k t p]: [p] is a path i_k, i_(k-1), ..., i_t of elements of dimensions k, ..., t,
    each being a boundary element of its predecessor. *)
Inductive chain m : nat -> nat -> list N -> Prop :=
| chain_end k i : chain m k k [i]
| chain_step k t i j js p :
    children m (S k) i js -> In j js -> chain m k t (j :: p) -> chain m (S k) t (i :: j :: p).

(** Element [j] of dimension [t] is incident to element [i] of dimension [k] (t <= k). *)
Definition incident m (k t : nat) (i j : N) : Prop :=
  exists p, chain m k t (i :: p) /\ last (i :: p) i = j.

(** The order in which a traversal must meet the targets: for each boundary element, in order. *)
Inductive visits m : nat -> nat -> N -> list N -> Prop :=
| visits_end k i : visits m k k i [i]
| visits_step k t i js ls :
    t <= k -> children m (S k) i js -> Forall2 (visits m k t) js ls ->
    visits m (S k) t i (concat ls).

End Spec.

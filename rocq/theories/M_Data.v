(** Model of UnstructuredMesh/MeshDataContainer/MeshDataContainer.h: data mapped to mesh elements.
    One model serves both the single-type container (lines 39-440: take [T p] the same for all
    positions) and the tuple container (lines 460-732: [T p] is DataType<p>).
    [dims] is the template argument list Dimensions...; a container object is, for every position of
    that list, one vector.
    Copies and moves (defaulted or memberwise, 157-159 and 425-439) are in M_DataOps. Not modelled: the
    type computations; lookups that the C++ compiler rejects are [None]. *)
From Verif Require Import Base M_Mesh M_FPMA.

(** MeshDataContainer.h:11-21 DimensionPos; 42-45 dimensionIndex. [None]: static_assert at line 20. *)
Fixpoint dimensionPos (dim : nat) (pos : nat) (dims : list nat) : option nat :=
  match dims with
  | [] => None
  | d :: r => if dim =? d then Some pos else dimensionPos dim (S pos) r
  end.
Definition dimensionIndex (dims : list nat) (dim : nat) : option nat := dimensionPos dim 0 dims.

(** 46-49 dimensionAt. *)
Definition dimensionAt (dims : list nat) (pos : nat) : option nat := nth_error dims pos.

Section Data.
Context {T : nat -> Type}.
(** The value a default constructed (value initialised) DataType<p> has. *)
Variable dflt : forall p, T p.

(** 56-68 and 478-486 _DataContainer: the vectors, one per position. *)
Definition Data := forall p : nat, list (T p).

(** A default constructed container: all vectors empty (155, 679). *)
Definition emptyData : Data := fun p => [].

(** Assigning the vector at position [p] and no other. *)
Definition setPos (d : Data) (p : nat) (l : list (T p)) : Data :=
  fun q => match Nat.eq_dec p q with
           | left e => eq_rect p (fun p => list (T p)) l q e
           | right _ => d q
           end.

(** 84-117, 504-532: allocateMemory<pos>(mesh [, values...]). [n] positions remain; [size] gives the
    size for a mapped dimension (of the mesh, or of another container, 119-138 and 534-556) and [init]
    the fill value of each position (the default value when no initial value is given). *)
Fixpoint allocateMemory (dims : list nat) (size : nat -> nat) (init : forall p, T p)
  (n pos : nat) (d : Data) : Data :=
  match n with
  | O => d
  | S n' =>
      match dimensionAt dims pos with
      | None => d                             (* not reached: pos < sizeof...(Dimensions) *)
      | Some dim => allocateMemory dims size init n' (S pos)
                      (setPos d pos (vresize (size dim) (init pos) (d pos)))
      end
  end.

(** 235-238, 697-700 allocateData(mesh) and the constructors 167-184, 686-689 (on [emptyData]). *)
Definition allocateData {V} (m : Mesh V) (dims : list nat) (d : Data) : Data :=
  allocateMemory dims (n_elems m) dflt (length dims) 0 d.

(** 246-249, 704-708 allocateData(mesh, initialValue...) and the constructors 197-221, 691-695. *)
Definition allocateInit {V} (m : Mesh V) (dims : list nat) (init : forall p, T p) (d : Data) : Data :=
  allocateMemory dims (n_elems m) init (length dims) 0 d.

(** 286-298, 572-582 getDataByDim: the position of the vector returned. *)
Definition getDataByDim (dims : list nat) (d : Data) (dim : nat) : option { p : nat & list (T p) } :=
  match dimensionIndex dims dim with
  | Some p => Some (existT _ p (d p))
  | None => None
  end.

(** 327-340, 599-609 at(element); the element is (dimension, getIndex()). [None]: does not compile. *)
Definition at_elem (dims : list nat) (d : Data) (dim : nat) (i : N) : option { p : nat & outcome (T p) } :=
  match dimensionIndex dims dim with
  | Some p => Some (existT _ p (vat (d p) i))
  | None => None
  end.

(** 377-412, 643-677 operator[](element), operator[](ElementIndex): no bounds check. *)
Definition idx_elem (dims : list nat) (d : Data) (dim : nat) (i : N) : option { p : nat & outcome (T p) } :=
  match dimensionIndex dims dim with
  | Some p => Some (existT _ p (vidx (d p) i))
  | None => None
  end.

(** container.at(element) = v (a write through the reference returned by at). *)
Definition write_at (d : Data) (p : nat) (i : N) (v : T p) : outcome Data :=
  l <- vset (d p) i v ;; Ok (setPos d p l).

(** container[element] = v. *)
Definition write_idx (d : Data) (p : nat) (i : N) (v : T p) : outcome Data :=
  if (i <? N.of_nat (length (d p)))%N then Ok (setPos d p (upd (d p) (N.to_nat i) v)) else UB.
End Data.
Arguments Data T : clear implicits.

(** 258-273: allocateData(otherContainer, initialValue) (the form without a value calls the
    function of 119-123, whose first pack of parameters cannot be deduced, so it does not compile): the size for dimension [dim] is the size of
    the other container's first vector mapped to [dim]. *)
Definition otherSize {T' : nat -> Type} (dims' : list nat) (d' : Data T') (dim : nat) : nat :=
  match getDataByDim dims' d' dim with
  | Some (existT _ p l) => length l
  | None => 0                               (* does not compile *)
  end.

(** Model of UnstructuredMesh/UnstructuredMeshDefine.h:5-31.
    The parameter [d] is [std::numeric_limits<IndexType>::digits] (64 for size_t, 32 for
    unsigned int, 31 for int; for signed types only the non-negative values are modelled,
    which are the only ones used as indices). *)
From Verif Require Import Base.
Local Open Scope N_scope.

(** UnstructuredMeshDefine.h:5  INVALID_INDEX = numeric_limits::max() *)
Definition INVALID_INDEX (d : N) : N := N.ones d.

(** UnstructuredMeshDefine.h:6  BOUNDARY_INDEX = 1 << (digits - 1) *)
Definition BOUNDARY_INDEX (d : N) : N := N.shiftl 1 (d - 1).

(** UnstructuredMeshDefine.h:7  EXTRACTING_INDEX = ~BOUNDARY_INDEX, truncated to the type *)
Definition EXTRACTING_INDEX (d : N) : N := N.lxor (N.ones d) (BOUNDARY_INDEX d).

(** UnstructuredMeshDefine.h:10-13 *)
Definition isInvalidIndex (d i : N) : bool := i =? INVALID_INDEX d.

(** UnstructuredMeshDefine.h:16-19 *)
Definition isBoundaryIndex (d i : N) : bool :=
  N.land (BOUNDARY_INDEX d) i =? BOUNDARY_INDEX d.

(** UnstructuredMeshDefine.h:22-25 *)
Definition makeBoundaryIndex (d i : N) : N := N.lor (BOUNDARY_INDEX d) i.

(** UnstructuredMeshDefine.h:28-31 *)
Definition extractBoundaryIndex (d i : N) : N := N.land (EXTRACTING_INDEX d) i.

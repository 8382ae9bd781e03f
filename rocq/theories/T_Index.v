(** Property C01. *)
From Verif Require Import P_Base M_Index P_Index.
Local Open Scope N_scope.

(** C01. [d] is the number of value bits of the index type; a plain index has the top bit clear.
    Also recorded: the only plain index whose boundary code collides with the invalid index is the
    largest one. *)
Theorem C01_boundary_index_encoding : forall d, 1 <= d ->
  (forall i, i < 2 ^ d -> (isBoundaryIndex d i = false <-> i < 2 ^ (d - 1))) /\
  (forall i, i < 2 ^ (d - 1) ->
     isBoundaryIndex d (makeBoundaryIndex d i) = true /\
     makeBoundaryIndex d i < 2 ^ d /\
     extractBoundaryIndex d (makeBoundaryIndex d i) = i /\
     isInvalidIndex d i = false /\
     (isInvalidIndex d (makeBoundaryIndex d i) = true <-> i = 2 ^ (d - 1) - 1)) /\
  (forall i j, i < 2 ^ (d - 1) -> j < 2 ^ (d - 1) ->
     makeBoundaryIndex d i = makeBoundaryIndex d j -> i = j) /\
  (forall i, i < 2 ^ d -> makeBoundaryIndex d (makeBoundaryIndex d i) = makeBoundaryIndex d i) /\
  (forall i, i < 2 ^ d -> isBoundaryIndex d i = true ->
     extractBoundaryIndex d i < 2 ^ (d - 1) /\
     makeBoundaryIndex d (extractBoundaryIndex d i) = i) /\
  (INVALID_INDEX d = 2 ^ d - 1 /\
   isInvalidIndex d (INVALID_INDEX d) = true /\ isBoundaryIndex d (INVALID_INDEX d) = true).
Proof.
  intros d Hd. repeat apply conj.
  - intros i Hi. apply plain_not_boundary; assumption.
  - intros i Hi. repeat apply conj.
    + apply isBoundary_make.
    + apply make_lt; [assumption|]. eapply N.lt_le_trans; [exact Hi|]. apply N.pow_le_mono_r; lia.
    + apply extract_make; assumption.
    + apply plain_not_invalid; assumption.
    + apply make_invalid_iff; assumption.
    + apply make_invalid_iff; assumption.
  - intros i j Hi Hj E. rewrite <- (extract_make d i), <- (extract_make d j), E by assumption. reflexivity.
  - intros i _. apply make_idem.
  - intros i Hi Hb. split; [apply extract_plain|apply make_extract]; assumption.
  - apply invalid_pow.
  - unfold isInvalidIndex. apply N.eqb_refl.
  - apply invalid_is_boundary; assumption.
Qed.
Print Assumptions C01_boundary_index_encoding.

(** The hypotheses are met by size_t and index 5. *)
Example C01_instance :
  1 <= 64 /\ 5 < 2 ^ (64 - 1) /\ makeBoundaryIndex 64 5 = 9223372036854775813 /\
  extractBoundaryIndex 64 9223372036854775813 = 5 /\ INVALID_INDEX 64 = INVALID.
Proof. vm_compute. repeat split; congruence. Qed.

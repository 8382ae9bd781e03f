From Verif Require Import P_Base M_Index.
Local Open Scope N_scope.

Lemma boundary_pow d : BOUNDARY_INDEX d = 2 ^ (d - 1).
Proof. unfold BOUNDARY_INDEX. rewrite N.shiftl_1_l. reflexivity. Qed.

Lemma invalid_pow d : INVALID_INDEX d = 2 ^ d - 1.
Proof. unfold INVALID_INDEX. rewrite N.ones_equiv, N.sub_1_r. reflexivity. Qed.

Lemma testbit_boundary d k : N.testbit (BOUNDARY_INDEX d) k = (k =? d - 1).
Proof.
  rewrite boundary_pow. rewrite N.pow2_bits_eqb. apply N.eqb_sym.
Qed.

Lemma testbit_ones d k : N.testbit (N.ones d) k = (k <? d).
Proof.
  destruct (N.ltb_spec k d).
  - apply N.ones_spec_low; assumption.
  - apply N.ones_spec_high; assumption.
Qed.

Lemma testbit_extracting d k :
  1 <= d -> N.testbit (EXTRACTING_INDEX d) k = (k <? d - 1).
Proof.
  intros Hd. unfold EXTRACTING_INDEX. rewrite N.lxor_spec, testbit_ones, testbit_boundary.
  destruct (N.ltb_spec k d), (N.eqb_spec k (d - 1)), (N.ltb_spec k (d - 1)); simpl; try reflexivity; lia.
Qed.

Lemma testbit_lt i d k : i < 2 ^ d -> d <= k -> N.testbit i k = false.
Proof.
  intros H Hk. destruct (N.eq_dec i 0) as [->|Hi]; [apply N.bits_0|].
  apply N.bits_above_log2.
  apply N.log2_lt_pow2 in H; lia.
Qed.

Lemma lt_testbit i d : (forall k, d <= k -> N.testbit i k = false) -> i < 2 ^ d.
Proof.
  intros H. destruct (N.eq_dec i 0) as [->|Hi].
  - apply N.neq_0_lt_0. apply N.pow_nonzero; lia.
  - apply N.log2_lt_pow2; [lia|].
    destruct (N.lt_ge_cases (N.log2 i) d) as [Hl|Hl]; [assumption|].
    specialize (H _ Hl). rewrite N.bit_log2 in H by assumption. discriminate.
Qed.

Lemma isBoundary_testbit d i : isBoundaryIndex d i = N.testbit i (d - 1).
Proof.
  unfold isBoundaryIndex.
  destruct (N.testbit i (d - 1)) eqn:E.
  - apply N.eqb_eq. apply N.bits_inj. intros k.
    rewrite N.land_spec, testbit_boundary.
    destruct (N.eqb_spec k (d - 1)) as [->|]; simpl; [assumption|reflexivity].
  - apply N.eqb_neq. intros H.
    assert (Hb : N.testbit (N.land (BOUNDARY_INDEX d) i) (d - 1) = true).
    { rewrite H, testbit_boundary. apply N.eqb_refl. }
    rewrite N.land_spec, E, andb_false_r in Hb. discriminate.
Qed.

Lemma isBoundary_make d i : isBoundaryIndex d (makeBoundaryIndex d i) = true.
Proof.
  rewrite isBoundary_testbit. unfold makeBoundaryIndex.
  rewrite N.lor_spec, testbit_boundary, N.eqb_refl. reflexivity.
Qed.

Lemma plain_not_boundary d i :
  1 <= d -> i < 2 ^ d -> (isBoundaryIndex d i = false <-> i < 2 ^ (d - 1)).
Proof.
  intros Hd Hi. rewrite isBoundary_testbit. split.
  - intros H. apply lt_testbit. intros k Hk.
    destruct (N.eq_dec k (d - 1)) as [->|]; [assumption|].
    apply testbit_lt with d; [assumption|lia].
  - intros H. apply testbit_lt with (d - 1); [assumption|lia].
Qed.

Lemma extract_make d i :
  1 <= d -> i < 2 ^ (d - 1) -> extractBoundaryIndex d (makeBoundaryIndex d i) = i.
Proof.
  intros Hd Hi. apply N.bits_inj. intros k.
  unfold extractBoundaryIndex, makeBoundaryIndex.
  rewrite N.land_spec, N.lor_spec, testbit_extracting, testbit_boundary by assumption.
  destruct (N.ltb_spec k (d - 1)).
  - simpl. destruct (N.eqb_spec k (d - 1)); [lia|reflexivity].
  - simpl. symmetry. apply testbit_lt with (d - 1); [assumption|lia].
Qed.

Lemma make_idem d i : makeBoundaryIndex d (makeBoundaryIndex d i) = makeBoundaryIndex d i.
Proof.
  apply N.bits_inj; intros k. unfold makeBoundaryIndex. rewrite !N.lor_spec.
  destruct (N.testbit (BOUNDARY_INDEX d) k); reflexivity.
Qed.

Lemma make_extract d i :
  1 <= d -> i < 2 ^ d -> isBoundaryIndex d i = true ->
  makeBoundaryIndex d (extractBoundaryIndex d i) = i.
Proof.
  intros Hd Hi Hb. rewrite isBoundary_testbit in Hb. apply N.bits_inj. intros k.
  unfold extractBoundaryIndex, makeBoundaryIndex.
  rewrite N.lor_spec, N.land_spec, testbit_extracting, testbit_boundary by assumption.
  destruct (N.eqb_spec k (d - 1)) as [->|]; [rewrite Hb; reflexivity|].
  destruct (N.ltb_spec k (d - 1)); [reflexivity|].
  simpl. symmetry. apply testbit_lt with d; [assumption|lia].
Qed.

Lemma extract_plain d i : 1 <= d -> i < 2 ^ d -> extractBoundaryIndex d i < 2 ^ (d - 1).
Proof.
  intros Hd Hi. apply lt_testbit. intros k Hk. unfold extractBoundaryIndex.
  rewrite N.land_spec, testbit_extracting by assumption.
  destruct (N.ltb_spec k (d - 1)); [lia|reflexivity].
Qed.

Lemma make_lt d i : 1 <= d -> i < 2 ^ d -> makeBoundaryIndex d i < 2 ^ d.
Proof.
  intros Hd Hi. apply lt_testbit. intros k Hk. unfold makeBoundaryIndex.
  rewrite N.lor_spec, testbit_boundary.
  destruct (N.eqb_spec k (d - 1)); [lia|]. simpl.
  apply testbit_lt with d; assumption.
Qed.

Lemma make_plain_add d i :
  1 <= d -> i < 2 ^ (d - 1) -> makeBoundaryIndex d i = 2 ^ (d - 1) + i.
Proof.
  intros Hd Hi. unfold makeBoundaryIndex.
  rewrite <- N.lxor_lor, <- N.add_nocarry_lxor; [rewrite boundary_pow; reflexivity|..];
    (apply N.bits_inj; intros k; rewrite N.land_spec, testbit_boundary, N.bits_0;
     destruct (N.eqb_spec k (d - 1)) as [->|]; [|reflexivity]; simpl;
     apply testbit_lt with (d - 1); [assumption|lia]).
Qed.

Lemma invalid_is_boundary d : 1 <= d -> isBoundaryIndex d (INVALID_INDEX d) = true.
Proof.
  intros Hd. rewrite isBoundary_testbit. unfold INVALID_INDEX. rewrite testbit_ones. lia.
Qed.

Lemma make_invalid_iff d i :
  1 <= d -> i < 2 ^ (d - 1) ->
  (isInvalidIndex d (makeBoundaryIndex d i) = true <-> i = 2 ^ (d - 1) - 1).
Proof.
  intros Hd Hi. unfold isInvalidIndex. rewrite N.eqb_eq, make_plain_add, invalid_pow by assumption.
  assert (E : 2 ^ d = 2 * 2 ^ (d - 1)).
  { replace d with (N.succ (d - 1)) at 1 by lia. apply N.pow_succ_r'. }
  lia.
Qed.

Lemma plain_not_invalid d i : 1 <= d -> i < 2 ^ (d - 1) -> isInvalidIndex d i = false.
Proof.
  intros Hd Hi. unfold isInvalidIndex. apply N.eqb_neq. rewrite invalid_pow.
  assert (E : 2 ^ d = 2 * 2 ^ (d - 1)).
  { replace d with (N.succ (d - 1)) at 1 by lia. apply N.pow_succ_r'. }
  assert (0 < 2 ^ (d - 1)) by (apply N.neq_0_lt_0, N.pow_nonzero; lia).
  lia.
Qed.

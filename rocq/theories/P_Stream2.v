(** Proofs about [M_Stream]: rounding to six digits is the nearest, and stable. *)
From Coq Require Import String Ascii QArith Qround Qabs Qreduction Qpower Lqa.
From Verif Require Import Base P_Base M_Text M_Print M_Stream S_Stream P_Stream.
Local Open Scope list_scope.

Lemma rhe_nearest q j : Qabs (inject_Z (rhe q) - q) <= Qabs (inject_Z j - q).
Proof.
  apply Qnot_lt_le. intros H. pose proof (rhe_near q) as N.
  assert (E : rhe q = j) by (apply rhe_unique; lra). subst j. lra.
Qed.
Lemma abs_scale s a b x q : 0 < s -> x == q * s -> Qabs (a - q) <= Qabs (b - q) -> Qabs (a * s - x) <= Qabs (b * s - x).
Proof.
  intros Hs Ex H. setoid_replace (a * s - x) with ((a - q) * s) by (rewrite Ex; ring).
  setoid_replace (b * s - x) with ((b - q) * s) by (rewrite Ex; ring). rewrite !Qabs_Qmult.
  rewrite (Qabs_pos s) by lra. apply Qmult_le_compat_r; [exact H|lra].
Qed.
(** No multiple of the unit of the sixth digit is nearer. *)
Lemma six_grid x j : 0 < x -> Qabs (sixval (six x) - x) <= Qabs (inject_Z j * pow10 (exp10 x - 5) - x).
Proof.
  intros Hx. set (X := exp10 x). set (q := x * pow10 (5 - X)).
  assert (Ex : x == q * pow10 (X - 5)).
  { unfold q. replace (X - 5)%Z with (- (5 - X))%Z by lia. rewrite <- Qmult_assoc, pow10_inv, Qmult_1_r. reflexivity. }
  assert (E : sixval (six x) == inject_Z (rhe q) * pow10 (X - 5)).
  { unfold six. fold X. fold q. destruct (Z.eqb_spec (rhe q) (10 ^ 6)) as [E|E]; unfold sixval; cbn [fst snd]; [|reflexivity].
    rewrite E. replace (X + 1 - 5)%Z with (1 + (X - 5))%Z by lia. rewrite pow10_plus. change (pow10 1) with (10 # 1). rewrite Qmult_assoc. reflexivity. }
  rewrite E. apply (abs_scale _ _ _ x q); [apply pow10_pos|exact Ex|apply rhe_nearest].
Qed.
Lemma sixval_pos x : 0 < x -> 0 < sixval (six x).
Proof.
  intros Hx. destruct (six_spec x Hx) as [H _]. unfold sixval. pose proof (pow10_pos (snd (six x) - 5)) as P.
  assert (0 < inject_Z (fst (six x))) by (change 0 with (inject_Z 0); rewrite <- Zlt_Qlt; lia). nra.
Qed.
Lemma six_nearest x : 0 < x -> nearest_six x (sixval (six x)).
Proof.
  intros Hx. split.
  - destruct (six_spec x Hx) as [H _]. exists (fst (six x)), (snd (six x) - 5)%Z. split; [lia|reflexivity].
  - intros z (d & k & Hd & Hz). destruct (exp10_spec x Hx) as [A B]. set (X := exp10 x) in *.
    assert (S5 : pow10 X == inject_Z (10 ^ 5) * pow10 (X - 5)).
    { replace X with (5 + (X - 5))%Z at 1 by lia. rewrite pow10_plus. reflexivity. }
    assert (S6 : pow10 (X + 1) == inject_Z (10 ^ 6) * pow10 (X - 5)).
    { replace (X + 1)%Z with (6 + (X - 5))%Z at 1 by lia. rewrite pow10_plus. reflexivity. }
    destruct (Qlt_le_dec (pow10 X) z) as [C1|C1].
    + destruct (Qlt_le_dec z (pow10 (X + 1))) as [C2|C2].
      * assert (Hk : (X - 5 <= k)%Z).
        { destruct (Z_le_gt_dec (X - 5) k) as [L|L]; [exact L|]. exfalso. assert (P : pow10 (k + 6) <= pow10 X) by (apply pow10_le; lia).
          rewrite Z.add_comm, pow10_plus in P. change (pow10 6) with (1000000 # 1) in P. fold (pow10 k) in Hz. pose proof (pow10_pos k) as Pk.
          assert (inject_Z d < 1000000 # 1) by (change (1000000 # 1) with (inject_Z 1000000); rewrite <- Zlt_Qlt; lia). rewrite Hz in C1. nra. }
        setoid_replace z with (inject_Z (d * 10 ^ (k - (X - 5))) * pow10 (X - 5)); [apply six_grid; exact Hx|].
        rewrite Hz, inject_Z_mult, <- pow10_nat by lia. rewrite <- Qmult_assoc, <- pow10_plus.
        replace (k - (X - 5) + (X - 5))%Z with k by lia. reflexivity.
      * pose proof (six_grid x (10 ^ 6) Hx) as G. fold X in G. rewrite <- S6 in G. eapply Qle_trans; [exact G|].
        rewrite !Qabs_pos by lra. lra.
    + pose proof (six_grid x (10 ^ 5) Hx) as G. fold X in G. rewrite <- S5 in G. eapply Qle_trans; [exact G|].
      rewrite !Qabs_neg by lra. lra.
Qed.
Lemma six_opp y : six_digits y -> six_digits (- y).
Proof. intros (d & k & H & E). exists (- d)%Z, k. split; [lia|]. rewrite E, inject_Z_opp. ring. Qed.
Lemma six_eq x y : x == y -> six_digits x -> six_digits y.
Proof. intros E (d & k & H & D). exists d, k. split; [exact H|]. rewrite <- E. exact D. Qed.
Lemma nearest_opp x y : nearest_six x y -> nearest_six (- x) (- y).
Proof.
  intros [S N]. split; [apply six_opp; exact S|]. intros z Hz. specialize (N (- z) (six_opp z Hz)).
  setoid_replace (- y - - x) with (- (y - x)) by ring. setoid_replace (z - - x) with (- (- z - x)) by ring. rewrite !Qabs_opp. exact N.
Qed.
Lemma nearest_eq x x' y y' : x == x' -> y == y' -> nearest_six x y -> nearest_six x' y'.
Proof. intros Ex Ey [S N]. split; [apply (six_eq y); assumption|]. intros z Hz. rewrite <- Ex, <- Ey. apply N. exact Hz. Qed.
Lemma round6_nearest x : nearest_six x (round6 x).
Proof.
  unfold round6. destruct (Qcompare_spec x 0) as [E|L|G].
  - split; [exists 0%Z, 0%Z; split; [lia|reflexivity]|]. intros z _. rewrite E. apply Qabs_nonneg.
  - apply (nearest_eq (- - x) _ (- sixval (six (- x)))); [ring|symmetry; apply Qred_correct|]. apply nearest_opp, six_nearest. lra.
  - apply (nearest_eq x _ (sixval (six x))); [reflexivity|symmetry; apply Qred_correct|]. apply six_nearest. exact G.
Qed.
Lemma six_error x : 0 < x -> Qabs (sixval (six x) - x) <= (5 # 1000000) * x.
Proof.
  intros Hx. destruct (six_spec x Hx) as [_ H]. destruct (exp10_spec x Hx) as [A _]. eapply Qle_trans; [exact H|].
  replace (exp10 x) with (5 + (exp10 x - 5))%Z in A at 1 by lia. rewrite pow10_plus in A. change (pow10 5) with (100000 # 1) in A. lra.
Qed.
Lemma round6_error x : Qabs (round6 x - x) <= (5 # 1000000) * Qabs x.
Proof.
  unfold round6. destruct (Qcompare_spec x 0) as [E|L|G].
  - rewrite E. discriminate.
  - rewrite Qred_correct. setoid_replace (- sixval (six (- x)) - x) with (- (sixval (six (- x)) - - x)) by ring.
    rewrite Qabs_opp, (Qabs_neg x) by lra. apply six_error. lra.
  - rewrite Qred_correct, (Qabs_pos x) by lra. apply six_error. exact G.
Qed.
Lemma six_proper x y : 0 < x -> x == y -> six x = six y.
Proof.
  intros Hx E. destruct (exp10_spec x Hx) as [A B]. assert (Ee : exp10 y = exp10 x) by (apply exp10_unique; rewrite <- E; split; assumption).
  unfold six. rewrite Ee. assert (Er : rhe (y * pow10 (5 - exp10 x)) = rhe (x * pow10 (5 - exp10 x))).
  { unfold rhe. assert (Q : y * pow10 (5 - exp10 x) == x * pow10 (5 - exp10 x)) by (apply Qmult_comp; [symmetry; exact E|reflexivity]).
    rewrite (Qfloor_comp _ _ Q). assert (Qc : forall f, Qcompare (y * pow10 (5 - exp10 x) - f) (1 # 2) = Qcompare (x * pow10 (5 - exp10 x) - f) (1 # 2)).
    { intros f. apply Qcompare_comp; [|reflexivity]. apply Qplus_comp; [exact Q|reflexivity]. }
    rewrite Qc. reflexivity. }
  rewrite Er. reflexivity.
Qed.
(** A number that is read with a relative error of at most 10^-7 is written as before. *)
Lemma putPos_same a b : six a = six b -> putPos a = putPos b.
Proof. intros H. unfold putPos. rewrite H. reflexivity. Qed.
Lemma stable_pos x v : 0 < x -> Qabs (v - sixval (six x)) <= (1 # 10000000) * sixval (six x) -> six v = six x /\ 0 < v.
Proof.
  intros Hx H. pose proof (sixval_pos x Hx) as P. destruct (six_spec x Hx) as [D _]. split.
  - rewrite (surjective_pairing (six x)) in *. apply six_stable; assumption.
  - apply Qabs_Qle_condition in H. lra.
Qed.
Lemma round6_stable x v : Qabs (v - round6 x) <= (1 # 10000000) * Qabs (round6 x) -> round6 v = round6 x /\ putQ v = putQ x.
Proof.
  unfold round6 at 1 2 4, putQ. destruct (Qcompare_spec x 0) as [E|L|G]; intros H.
  - assert (Z : v == 0). { change (Qabs 0) with 0 in H. apply Qabs_Qle_condition in H. lra. }
    unfold round6. rewrite Z. split; reflexivity.
  - rewrite Qred_correct in H. assert (Hx : 0 < - x) by lra. pose proof (sixval_pos _ Hx) as P.
    assert (H' : Qabs (- v - sixval (six (- x))) <= (1 # 10000000) * sixval (six (- x))).
    { setoid_replace (- v - sixval (six (- x))) with (- (v - - sixval (six (- x)))) by ring. rewrite Qabs_opp. rewrite Qabs_opp, (Qabs_pos (sixval _)) in H by lra. exact H. }
    destruct (stable_pos _ _ Hx H') as [S V]. unfold round6. destruct (Qcompare_spec v 0) as [E|_|G]; try (exfalso; lra).
    rewrite S. split; [reflexivity|]. f_equal. apply putPos_same. exact S.
  - rewrite Qred_correct in H. pose proof (sixval_pos _ G) as P. rewrite (Qabs_pos (sixval _)) in H by lra.
    destruct (stable_pos _ _ G H) as [S V]. unfold round6. destruct (Qcompare_spec v 0) as [E|L|_]; try (exfalso; lra).
    rewrite S. split; [reflexivity|]. apply putPos_same. exact S.
Qed.

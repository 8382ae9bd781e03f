(** Proofs about [M_Stream]: numbers as characters. *)
From Coq Require Import String Ascii QArith Qround Qabs Qreduction Qpower Lqa DecimalString DecimalN DecimalFacts DecimalPos.
From Verif Require Import Base P_Base M_Text M_Print M_Stream.
Local Open Scope list_scope.

(** * Digits *)
Lemma span_all p s r : forallb p s = true -> match r with [] => True | c :: _ => p c = false end -> span p (s ++ r) = (s, r).
Proof.
  induction s as [|c s IH]; simpl; intros H Hr.
  - destruct r as [|c r]; [reflexivity|]. simpl. rewrite Hr. reflexivity.
  - apply andb_true_iff in H as [-> H]. rewrite IH by assumption. reflexivity.
Qed.
Fixpoint uval (u : Decimal.uint) (a : N) : N :=
  match u with
  | Decimal.Nil => a
  | Decimal.D0 u => uval u (10 * a) | Decimal.D1 u => uval u (10 * a + 1) | Decimal.D2 u => uval u (10 * a + 2)
  | Decimal.D3 u => uval u (10 * a + 3) | Decimal.D4 u => uval u (10 * a + 4) | Decimal.D5 u => uval u (10 * a + 5)
  | Decimal.D6 u => uval u (10 * a + 6) | Decimal.D7 u => uval u (10 * a + 7) | Decimal.D8 u => uval u (10 * a + 8)
  | Decimal.D9 u => uval u (10 * a + 9)
  end%N.
Definition utext (u : Decimal.uint) : text := str (NilEmpty.string_of_uint u).
Lemma utext_value u a : fold_left push_digit (utext u) a = uval u a.
Proof. revert a. induction u; intros a; try reflexivity; unfold utext, str in *; cbn [NilEmpty.string_of_uint list_ascii_of_string fold_left uval]; rewrite IHu; f_equal; first [reflexivity|apply N.add_0_r]. Qed.
Lemma utext_digits u : forallb is_digit (utext u) = true.
Proof. induction u; cbn; try reflexivity; exact IHu. Qed.
Lemma uval_acc u p : uval u (Npos p) = Npos (Pos.of_uint_acc u p).
Proof.
  revert p. induction u; intros p; cbn [uval Pos.of_uint_acc]; try reflexivity; rewrite <- IHu; f_equal; lia.
Qed.
Lemma uval_0 u : uval u 0 = N.of_uint u.
Proof.
  unfold N.of_uint. induction u; cbn [uval Pos.of_uint N.mul N.add]; try reflexivity; [exact IHu|..];
    change (10 * 0)%N with 0%N; cbn [N.add]; apply uval_acc.
Qed.
Lemma putN_value n : value (putN n) = n.
Proof.
  unfold value, putN, to_string. change (str (NilEmpty.string_of_uint (N.to_uint n))) with (utext (N.to_uint n)).
  rewrite utext_value, uval_0. apply DecimalN.Unsigned.of_to.
Qed.
Lemma putN_digits n : forallb is_digit (putN n) = true.
Proof. apply utext_digits. Qed.
Lemma value_app a b : value (a ++ b) = fold_left push_digit b (value a).
Proof. unfold value. apply fold_left_app. Qed.
Lemma fold_digits s a : fold_left push_digit s a = (a * 10 ^ N.of_nat (length s) + value s)%N.
Proof.
  unfold value. revert a. induction s as [|c s IH]; intros a; cbn [fold_left length].
  - rewrite N.pow_0_r. lia.
  - rewrite IH, (IH (push_digit 0 c)). unfold push_digit. rewrite Nat2N.inj_succ, N.pow_succ_r'. lia.
Qed.
Lemma push_lt c : (match digit c with Some d => d | None => 0 end < 10)%N.
Proof.
  unfold digit. destruct ((48 <=? nat_of c)%nat && (nat_of c <=? 57)%nat) eqn:E; [|lia].
  apply andb_true_iff in E as [A B]. apply Nat.leb_le in A, B. lia.
Qed.
Lemma value_lt s : (value s < 10 ^ N.of_nat (length s))%N.
Proof.
  induction s as [|c s IH]; [cbn; lia|]. unfold value in *. cbn [fold_left length]. rewrite fold_digits.
  unfold push_digit at 1. pose proof (push_lt c). rewrite Nat2N.inj_succ, N.pow_succ_r'. unfold value. nia.
Qed.
Lemma nzhead_short d : (Decimal.nb_digits (Decimal.nzhead d) <= Decimal.nb_digits d)%nat.
Proof. induction d; simpl; lia. Qed.
Lemma to_uint_head n d : N.to_uint n = Decimal.D0 d -> d = Decimal.Nil.
Proof.
  intros H. pose proof (DecimalN.Unsigned.to_of (N.to_uint n)) as E. rewrite DecimalN.Unsigned.of_to in E. rewrite H in E.
  unfold Decimal.unorm in E. cbn [Decimal.nzhead] in E. pose proof (nzhead_short d) as L.
  destruct (Decimal.nzhead d) eqn:Z; try (rewrite <- E in L; cbn in L; lia). injection E as ->. reflexivity.
Qed.
Lemma uval_ge u p : (N.pos p * 10 ^ N.of_nat (length (utext u)) <= uval u (N.pos p))%N.
Proof. rewrite <- utext_value, fold_digits. lia. Qed.
(** A number of k digits is at least 10^(k-1) and less than 10^k. *)
Lemma putN_length n : (0 < n)%N -> (10 ^ (N.of_nat (length (putN n)) - 1) <= n < 10 ^ N.of_nat (length (putN n)))%N /\ (0 < length (putN n))%nat.
Proof.
  intros Hn. pose proof (putN_value n) as V. pose proof (value_lt (putN n)) as L. rewrite V in L.
  assert (H : (10 ^ (N.of_nat (length (putN n)) - 1) <= n)%N /\ (0 < length (putN n))%nat); [|tauto].
  unfold putN, to_string in *. change (str (NilEmpty.string_of_uint (N.to_uint n))) with (utext (N.to_uint n)) in *.
  assert (U : uval (N.to_uint n) 0 = n) by (unfold value in V; rewrite utext_value in V; exact V).
  destruct (N.to_uint n) as [|u|u|u|u|u|u|u|u|u|u] eqn:E.
  - cbn in U. lia.
  - rewrite (to_uint_head n u E) in U. cbn in U. lia.
  - split; [|cbn; lia]. rewrite <- U. cbn [uval]. change (10 * 0 + 1)%N with 1%N. eapply N.le_trans; [|apply (uval_ge u 1)].
    change (length (utext (Decimal.D1 u))) with (S (length (utext u))). rewrite N.mul_1_l. apply N.pow_le_mono_r; lia.
  - split; [|cbn; lia]. rewrite <- U. cbn [uval]. change (10 * 0 + 2)%N with 2%N. eapply N.le_trans; [|apply (uval_ge u 2)].
    change (length (utext (Decimal.D2 u))) with (S (length (utext u))). replace (N.of_nat (S (length (utext u))) - 1)%N with (N.of_nat (length (utext u))) by lia. nia.
  - split; [|cbn; lia]. rewrite <- U. cbn [uval]. change (10 * 0 + 3)%N with 3%N. eapply N.le_trans; [|apply (uval_ge u 3)].
    change (length (utext (Decimal.D3 u))) with (S (length (utext u))). replace (N.of_nat (S (length (utext u))) - 1)%N with (N.of_nat (length (utext u))) by lia. nia.
  - split; [|cbn; lia]. rewrite <- U. cbn [uval]. change (10 * 0 + 4)%N with 4%N. eapply N.le_trans; [|apply (uval_ge u 4)].
    change (length (utext (Decimal.D4 u))) with (S (length (utext u))). replace (N.of_nat (S (length (utext u))) - 1)%N with (N.of_nat (length (utext u))) by lia. nia.
  - split; [|cbn; lia]. rewrite <- U. cbn [uval]. change (10 * 0 + 5)%N with 5%N. eapply N.le_trans; [|apply (uval_ge u 5)].
    change (length (utext (Decimal.D5 u))) with (S (length (utext u))). replace (N.of_nat (S (length (utext u))) - 1)%N with (N.of_nat (length (utext u))) by lia. nia.
  - split; [|cbn; lia]. rewrite <- U. cbn [uval]. change (10 * 0 + 6)%N with 6%N. eapply N.le_trans; [|apply (uval_ge u 6)].
    change (length (utext (Decimal.D6 u))) with (S (length (utext u))). replace (N.of_nat (S (length (utext u))) - 1)%N with (N.of_nat (length (utext u))) by lia. nia.
  - split; [|cbn; lia]. rewrite <- U. cbn [uval]. change (10 * 0 + 7)%N with 7%N. eapply N.le_trans; [|apply (uval_ge u 7)].
    change (length (utext (Decimal.D7 u))) with (S (length (utext u))). replace (N.of_nat (S (length (utext u))) - 1)%N with (N.of_nat (length (utext u))) by lia. nia.
  - split; [|cbn; lia]. rewrite <- U. cbn [uval]. change (10 * 0 + 8)%N with 8%N. eapply N.le_trans; [|apply (uval_ge u 8)].
    change (length (utext (Decimal.D8 u))) with (S (length (utext u))). replace (N.of_nat (S (length (utext u))) - 1)%N with (N.of_nat (length (utext u))) by lia. nia.
  - split; [|cbn; lia]. rewrite <- U. cbn [uval]. change (10 * 0 + 9)%N with 9%N. eapply N.le_trans; [|apply (uval_ge u 9)].
    change (length (utext (Decimal.D9 u))) with (S (length (utext u))). replace (N.of_nat (S (length (utext u))) - 1)%N with (N.of_nat (length (utext u))) by lia. nia.
Qed.
Lemma putN_nonempty n : putN n <> [].
Proof.
  destruct (N.eq_dec n 0) as [->|H]; [discriminate|]. destruct (putN_length n ltac:(lia)) as [_ L]. intros E. rewrite E in L. simpl in L. lia.
Qed.

(** * Powers of ten *)
Lemma ten_neq : ~ 10 # 1 == 0. Proof. intros H. discriminate H. Qed.
Lemma pow10_plus a b : pow10 (a + b) == pow10 a * pow10 b.
Proof. apply Qpower_plus. apply ten_neq. Qed.
Lemma pow10_0 : pow10 0 == 1. Proof. reflexivity. Qed.
Lemma pow10_nat k : (0 <= k)%Z -> pow10 k == inject_Z (10 ^ k).
Proof. intros H. unfold pow10. symmetry. apply Zpower_Qpower. exact H. Qed.
Lemma pow10_pos k : 0 < pow10 k.
Proof. unfold pow10. apply Qpower_0_lt. reflexivity. Qed.
Lemma pow10_inv k : pow10 k * pow10 (- k) == 1.
Proof. rewrite <- pow10_plus. replace (k + - k)%Z with 0%Z by lia. reflexivity. Qed.
Lemma pow10_le a b : (a <= b)%Z -> pow10 a <= pow10 b.
Proof.
  intros H. replace b with (a + (b - a))%Z by lia. rewrite pow10_plus. pose proof (pow10_pos a) as Ha.
  assert (1 <= pow10 (b - a)).
  { rewrite pow10_nat by lia. change 1 with (inject_Z 1). rewrite <- Zle_Qle. assert (0 < 10 ^ (b - a))%Z by (apply Z.pow_pos_nonneg; lia). lia. }
  nra.
Qed.
Lemma pow10_lt_inv a b : pow10 a < pow10 b -> (a < b)%Z.
Proof. intros H. destruct (Z_lt_le_dec a b) as [L|L]; [exact L|]. apply pow10_le in L. lra. Qed.

(** * Six digits *)
Lemma inject_N_pow n : inject_Z (Z.of_N (10 ^ N.of_nat n)) == pow10 (Z.of_nat n).
Proof. rewrite pow10_nat by lia. rewrite N2Z.inj_pow, nat_N_Z. reflexivity. Qed.
Lemma putN_Q n : (0 < n)%N -> let k := Z.of_nat (length (putN n)) in pow10 (k - 1) <= inject_Z (Z.of_N n) < pow10 k.
Proof.
  intros H k. destruct (putN_length n H) as [[A B] L]. split.
  - replace (k - 1)%Z with (Z.of_nat (length (putN n) - 1)) by lia. rewrite <- inject_N_pow, <- Zle_Qle.
    replace (N.of_nat (length (putN n) - 1)) with (N.of_nat (length (putN n)) - 1)%N by lia. lia.
  - unfold k. rewrite <- inject_N_pow, <- Zlt_Qlt. lia.
Qed.
Lemma exp10_spec x : 0 < x -> pow10 (exp10 x) <= x < pow10 (exp10 x + 1).
Proof.
  intros Hx. destruct x as [n d]. assert (Hn : (0 < n)%Z) by (unfold Qlt in Hx; simpl in Hx; lia).
  unfold exp10. cbn [Qnum Qden].
  pose proof (putN_Q (Z.to_N n) ltac:(lia)) as [A1 A2]. pose proof (putN_Q (N.pos d) ltac:(lia)) as [B1 B2].
  rewrite Z2N.id in A1, A2 by lia. change (Z.of_N (N.pos d)) with (Z.pos d) in B1, B2.
  set (ln := Z.of_nat (length (putN (Z.to_N n)))) in *. set (ld := Z.of_nat (length (putN (N.pos d)))) in *.
  assert (E : (n # d) * inject_Z (Z.pos d) == inject_Z n) by (unfold Qeq, Qmult, inject_Z; simpl; lia).
  assert (U : n # d < pow10 (ln - ld + 1)).
  { apply Qnot_le_lt. intros C. replace ln with ((ln - ld + 1) + (ld - 1))%Z in A2 by lia. rewrite pow10_plus in A2.
    pose proof (pow10_pos (ln - ld + 1)). pose proof (pow10_pos (ld - 1)). nra. }
  assert (W : pow10 (ln - ld - 1) <= n # d).
  { apply Qnot_lt_le. intros C. replace (ln - 1)%Z with ((ln - ld - 1) + ld)%Z in A1 by lia. rewrite pow10_plus in A1.
    pose proof (pow10_pos (ln - ld - 1)). pose proof (pow10_pos ld). nra. }
  destruct (Qle_bool (pow10 (ln - ld)) (n # d)) eqn:Q.
  - apply Qle_bool_iff in Q. split; assumption.
  - assert (Q' : n # d < pow10 (ln - ld)). { apply Qnot_le_lt. intros C. apply Qle_bool_iff in C. congruence. }
    split; [exact W|]. replace (ln - ld - 1 + 1)%Z with (ln - ld)%Z by lia. exact Q'.
Qed.
Lemma exp10_unique x k : pow10 k <= x < pow10 (k + 1) -> exp10 x = k.
Proof.
  intros [A B]. assert (Hx : 0 < x) by (pose proof (pow10_pos k); lra). destruct (exp10_spec x Hx) as [C D].
  assert (k < exp10 x + 1)%Z by (apply pow10_lt_inv; lra). assert (exp10 x < k + 1)%Z by (apply pow10_lt_inv; lra). lia.
Qed.

Lemma rhe_near q : Qabs (inject_Z (rhe q) - q) <= 1 # 2.
Proof.
  pose proof (Qfloor_le q) as A. pose proof (Qlt_floor q) as B. rewrite inject_Z_plus in B. change (inject_Z 1) with 1 in B.
  apply Qabs_Qle_condition. unfold rhe. destruct (Qcompare_spec (q - inject_Z (Qfloor q)) (1 # 2)) as [H|H|H].
  - destruct (Z.even (Qfloor q)); [|rewrite inject_Z_plus; change (inject_Z 1) with 1]; lra.
  - lra.
  - rewrite inject_Z_plus; change (inject_Z 1) with 1. lra.
Qed.
Lemma rhe_unique q z : Qabs (inject_Z z - q) < 1 # 2 -> rhe q = z.
Proof.
  intros H. apply Qabs_Qlt_condition in H. pose proof (rhe_near q) as N. apply Qabs_Qle_condition in N.
  assert (A : inject_Z z < inject_Z (rhe q + 1)) by (rewrite inject_Z_plus; change (inject_Z 1) with 1; lra).
  assert (B : inject_Z (rhe q) < inject_Z (z + 1)) by (rewrite inject_Z_plus; change (inject_Z 1) with 1; lra).
  rewrite <- Zlt_Qlt in A, B. lia.
Qed.
Lemma rhe_range q a b : inject_Z a <= q -> q < inject_Z b -> (a <= rhe q <= b)%Z.
Proof.
  intros Ha Hb. pose proof (rhe_near q) as N. apply Qabs_Qle_condition in N. split.
  - assert (A : inject_Z a < inject_Z (rhe q + 1)) by (rewrite inject_Z_plus; change (inject_Z 1) with 1; lra).
    rewrite <- Zlt_Qlt in A. lia.
  - assert (A : inject_Z (rhe q) < inject_Z (b + 1)) by (rewrite inject_Z_plus; change (inject_Z 1) with 1; lra).
    rewrite <- Zlt_Qlt in A. lia.
Qed.
(** The decimal number the six digits stand for. *)
Definition sixval (dX : Z * Z) : Q := inject_Z (fst dX) * pow10 (snd dX - 5).
Lemma scaled x : 0 < x -> let X := exp10 x in inject_Z (10 ^ 5) <= x * pow10 (5 - X) < inject_Z (10 ^ 6).
Proof.
  intros Hx X. destruct (exp10_spec x Hx) as [A B]. fold X in A, B. pose proof (pow10_pos (5 - X)) as P.
  rewrite <- !(pow10_nat 5), <- !(pow10_nat 6) by lia. split.
  - replace 5%Z with (X + (5 - X))%Z at 1 by lia. rewrite pow10_plus. nra.
  - replace 6%Z with ((X + 1) + (5 - X))%Z by lia. rewrite (pow10_plus (X + 1)). nra.
Qed.
Lemma six_spec x : 0 < x -> (10 ^ 5 <= fst (six x) < 10 ^ 6)%Z /\
  Qabs (sixval (six x) - x) <= (1 # 2) * pow10 (exp10 x - 5).
Proof.
  intros Hx. destruct (scaled x Hx) as [A B]. unfold six. set (X := exp10 x) in *. set (q := x * pow10 (5 - X)) in *.
  destruct (rhe_range q _ _ A B) as [R1 R2]. pose proof (rhe_near q) as N. set (d := rhe q) in *.
  assert (Ex : x == q * pow10 (X - 5)).
  { unfold q. replace (X - 5)%Z with (- (5 - X))%Z by lia. rewrite <- Qmult_assoc, pow10_inv, Qmult_1_r. reflexivity. }
  assert (Hd : Qabs (inject_Z d * pow10 (X - 5) - x) <= (1 # 2) * pow10 (X - 5)).
  { pose proof (pow10_pos (X - 5)) as P. rewrite Ex at 1. apply Qabs_Qle_condition. apply Qabs_Qle_condition in N. split; nra. }
  destruct (Z.eqb_spec d (10 ^ 6)) as [E|E]; cbn [fst snd]; unfold sixval; cbn [fst snd].
  - split; [lia|]. replace (X + 1 - 5)%Z with (1 + (X - 5))%Z by lia. rewrite E in Hd.
    setoid_replace (inject_Z (10 ^ 5) * pow10 (1 + (X - 5))) with (inject_Z (10 ^ 6) * pow10 (X - 5)); [exact Hd|].
    rewrite pow10_plus. change (pow10 1) with (10 # 1). rewrite Qmult_assoc. apply Qmult_comp; [reflexivity|reflexivity].
  - split; [lia|exact Hd].
Qed.
(** Reading with a small error and writing again gives the same digits. *)
Lemma six_stable d X v : (10 ^ 5 <= d < 10 ^ 6)%Z -> Qabs (v - sixval (d, X)) <= (1 # 10000000) * sixval (d, X) -> six v = (d, X).
Proof.
  intros Hd Hv. unfold sixval in Hv. cbn [fst snd] in Hv. pose proof (pow10_pos (X - 5)) as P. pose proof (pow10_pos (5 - X)) as P'.
  pose proof (pow10_inv (5 - X)) as I. replace (- (5 - X))%Z with (X - 5)%Z in I by lia.
  assert (D1 : inject_Z (10 ^ 5) <= inject_Z d) by (rewrite <- Zle_Qle; lia).
  assert (D2 : inject_Z d + 1 <= inject_Z (10 ^ 6)) by (change 1 with (inject_Z 1); rewrite <- inject_Z_plus, <- Zle_Qle; lia).
  change (inject_Z (10 ^ 5)) with (100000 # 1) in D1. change (inject_Z (10 ^ 6)) with (1000000 # 1) in D2.
  set (w := v * pow10 (5 - X)).
  assert (Ev : v == w * pow10 (X - 5)) by (unfold w; rewrite <- Qmult_assoc, I, Qmult_1_r; reflexivity).
  assert (W : - (1 # 10000000) * inject_Z d <= w - inject_Z d <= (1 # 10000000) * inject_Z d).
  { apply Qabs_Qle_condition in Hv. rewrite Ev in Hv. destruct Hv as [L U]. split; nra. }
  clear Hv. assert (S5 : pow10 X == (100000 # 1) * pow10 (X - 5)).
  { replace X with (5 + (X - 5))%Z at 1 by lia. rewrite pow10_plus. reflexivity. }
  assert (S6 : pow10 (X + 1) == (1000000 # 1) * pow10 (X - 5)).
  { replace (X + 1)%Z with (6 + (X - 5))%Z at 1 by lia. rewrite pow10_plus. reflexivity. }
  assert (S4 : pow10 (X - 1) == (10000 # 1) * pow10 (X - 5)).
  { replace (X - 1)%Z with (4 + (X - 5))%Z at 1 by lia. rewrite pow10_plus. reflexivity. }
  destruct (Qlt_le_dec w (100000 # 1)) as [C|C].
  - assert (Ed : d = (10 ^ 5)%Z).
    { assert (inject_Z d < inject_Z (10 ^ 5 + 1)) as Q by (change (inject_Z (10 ^ 5 + 1)) with (100001 # 1); lra). rewrite <- Zlt_Qlt in Q. lia. }
    subst d. change (inject_Z (10 ^ 5)) with (100000 # 1) in *. unfold six.
    assert (Ee : exp10 v = (X - 1)%Z).
    { apply exp10_unique. replace (X - 1 + 1)%Z with X by lia. rewrite S4, S5, Ev. split; nra. }
    rewrite Ee. assert (Er : rhe (v * pow10 (5 - (X - 1))) = (10 ^ 6)%Z).
    { apply rhe_unique. replace (5 - (X - 1))%Z with (1 + (5 - X))%Z by lia. rewrite pow10_plus. change (pow10 1) with (10 # 1).
      setoid_replace (v * ((10 # 1) * pow10 (5 - X))) with ((10 # 1) * w) by (unfold w; ring).
      change (inject_Z (10 ^ 6)) with (1000000 # 1). apply Qabs_Qlt_condition. lra. }
    rewrite Er, Z.eqb_refl. f_equal. lia.
  - unfold six. assert (Ee : exp10 v = X). { apply exp10_unique. rewrite S5, S6, Ev. split; nra. }
    rewrite Ee. fold w. assert (Er : rhe w = d) by (apply rhe_unique; apply Qabs_Qlt_condition; lra).
    rewrite Er. destruct (Z.eqb_spec d (10 ^ 6)); [lia|reflexivity].
Qed.

(** * Reading what was written *)
(** The end of a token: the end of the characters, or white space. *)
Definition stop (r : text) : bool := match r with [] => true | c :: _ => is_space c end.
Definition all_space (w : text) : bool := forallb is_space w.
Lemma digit_nonspace c : is_digit c = true -> is_space c = false.
Proof.
  unfold is_digit, digit, is_space. destruct ((48 <=? nat_of c)%nat && (nat_of c <=? 57)%nat) eqn:E; [|discriminate].
  intros _. apply andb_true_iff in E as [A B]. apply Nat.leb_le in A, B.
  apply orb_false_iff. split; [apply Nat.eqb_neq; lia|]. apply andb_false_iff. right. apply Nat.leb_gt. lia.
Qed.
Lemma space_cases c : is_space c = true -> is_digit c = false /\ Ascii.eqb c "." = false /\ Ascii.eqb c "e" = false /\ Ascii.eqb c "E" = false /\
  Ascii.eqb c "-" = false /\ Ascii.eqb c "+" = false.
Proof.
  intros H. split; [destruct (is_digit c) eqn:E; [apply digit_nonspace in E; congruence|reflexivity]|].
  repeat split.
  - destruct (Ascii.eqb_spec c ".") as [->|]; [discriminate H|reflexivity].
  - destruct (Ascii.eqb_spec c "e") as [->|]; [discriminate H|reflexivity].
  - destruct (Ascii.eqb_spec c "E") as [->|]; [discriminate H|reflexivity].
  - destruct (Ascii.eqb_spec c "-") as [->|]; [discriminate H|reflexivity].
  - destruct (Ascii.eqb_spec c "+") as [->|]; [discriminate H|reflexivity].
Qed.
Lemma digit_cases c : is_digit c = true -> Ascii.eqb c "." = false /\ Ascii.eqb c "-" = false /\ Ascii.eqb c "+" = false /\ Ascii.eqb c "e" = false.
Proof.
  intros H. repeat split.
  - destruct (Ascii.eqb_spec c ".") as [->|]; [discriminate H|reflexivity].
  - destruct (Ascii.eqb_spec c "-") as [->|]; [discriminate H|reflexivity].
  - destruct (Ascii.eqb_spec c "+") as [->|]; [discriminate H|reflexivity].
  - destruct (Ascii.eqb_spec c "e") as [->|]; [discriminate H|reflexivity].
Qed.
Lemma skip_ws_app w s : all_space w = true -> match s with [] => True | c :: _ => is_space c = false end -> skip_ws (w ++ s) = s.
Proof. intros H Hs. unfold skip_ws. rewrite span_all by assumption. reflexivity. Qed.
Lemma stop_digit r : stop r = true -> match r with [] => True | c :: _ => is_digit c = false end.
Proof. destruct r as [|c r]; [trivial|]. intros H. apply space_cases. exact H. Qed.
Lemma sign_digits s r : s <> [] -> forallb is_digit s = true -> sign (s ++ r) = (false, s ++ r).
Proof.
  destruct s as [|c s]; [easy|]. intros _ H. cbn [forallb] in H. apply andb_true_iff in H as [H _].
  destruct (digit_cases c H) as (_ & A & B & _). cbn [app sign]. rewrite A, B. reflexivity.
Qed.
Lemma head_digits s : s <> [] -> forallb is_digit s = true -> match s with [] => True | c :: _ => is_space c = false end.
Proof. destruct s; [easy|]. intros _ H. cbn [forallb] in H. apply andb_true_iff in H as [H _]. apply digit_nonspace. exact H. Qed.
Lemma head_app s r : s <> [] -> match s with [] => True | c :: _ => is_space c = false end -> match s ++ r with [] => True | c :: _ => is_space c = false end.
Proof. destruct s; [easy|]. intros _ H. exact H. Qed.
Lemma sentry_app w s : all_space w = true -> s <> [] -> match s with [] => True | c :: _ => is_space c = false end ->
  sentry (mkI (w ++ s) false) = Some s.
Proof. intros Hw Hn Hs. unfold sentry. cbn [failed chars]. rewrite skip_ws_app by assumption. destruct s; [easy|reflexivity]. Qed.

Lemma getN_putN n w r : (n < 2 ^ 64)%N -> all_space w = true -> stop r = true -> getN (mkI (w ++ putN n ++ r) false) = (Some n, mkI r false).
Proof.
  intros Hn Hw Hr. unfold getN. pose proof (putN_digits n) as D. pose proof (putN_nonempty n) as E.
  rewrite sentry_app; [|exact Hw|destruct (putN n); [easy|discriminate]|apply head_app; [exact E|apply head_digits; assumption]].
  rewrite sign_digits by assumption. rewrite span_all by (try assumption; apply stop_digit; exact Hr).
  rewrite putN_value. destruct (putN n) eqn:P; [easy|]. cbn [negb andb]. apply N.ltb_lt in Hn. rewrite Hn. reflexivity.
Qed.
Lemma getInt_putN n w r : (n < 2 ^ 31)%N -> all_space w = true -> stop r = true -> getInt (mkI (w ++ putN n ++ r) false) = (Some (Z.of_N n), mkI r false).
Proof.
  intros Hn Hw Hr. unfold getInt. pose proof (putN_digits n) as D. pose proof (putN_nonempty n) as E.
  rewrite sentry_app; [|exact Hw|destruct (putN n); [easy|discriminate]|apply head_app; [exact E|apply head_digits; assumption]].
  rewrite sign_digits by assumption. rewrite span_all by (try assumption; apply stop_digit; exact Hr).
  rewrite putN_value. destruct (putN n) eqn:P; [easy|].
  destruct (Z.ltb_spec (Z.of_N n) (- 2 ^ 31)); [lia|]. destruct (Z.ltb_spec (2 ^ 31 - 1) (Z.of_N n)); [lia|]. reflexivity.
Qed.
Lemma getWord_app s w r : all_space w = true -> stop r = true -> s <> [] -> forallb (fun c => negb (is_space c)) s = true ->
  getWord (mkI (w ++ s ++ r) false) = (Some s, mkI r false).
Proof.
  intros Hw Hr Hn Hs. unfold getWord. rewrite sentry_app; [|exact Hw|destruct s; [easy|discriminate]|].
  - rewrite span_all; [reflexivity|exact Hs|]. destruct r; [trivial|]. cbn [stop] in Hr. rewrite Hr. reflexivity.
  - destruct s as [|c s]; [easy|]. cbn [forallb] in Hs. apply andb_true_iff in Hs as [Hs _]. cbn [app]. destruct (is_space c); [discriminate|reflexivity].
Qed.

Lemma strip_zeros b : exists k, b = strip b ++ zeros k.
Proof.
  induction b as [|c b (k & E)]; [exists 0%nat; reflexivity|]. cbn [strip]. destruct (strip b) as [|c' t] eqn:Es.
  - destruct (Ascii.eqb_spec c "0") as [->|_]; [exists (S k); rewrite E; reflexivity|exists k; rewrite E; reflexivity].
  - exists k. rewrite E. reflexivity.
Qed.
Lemma strip_digits b : forallb is_digit b = true -> forallb is_digit (strip b) = true.
Proof. intros H. destruct (strip_zeros b) as (k & E). rewrite E, forallb_app in H. apply andb_true_iff in H. apply H. Qed.
Lemma value_zeros k : value (zeros k) = 0%N.
Proof. induction k; [reflexivity|]. unfold value in *. cbn [zeros repeat fold_left]. exact IHk. Qed.
Lemma value_zeros_l k s : value (zeros k ++ s) = value s.
Proof. unfold value. rewrite fold_left_app. fold (value (zeros k)). rewrite value_zeros. reflexivity. Qed.
Lemma zeros_digits k : forallb is_digit (zeros k) = true.
Proof. induction k; [reflexivity|]. cbn [zeros repeat forallb]. exact IHk. Qed.
(** Dropping trailing zeros of the fraction does not change the value. *)
Lemma strip_value a b : inject_Z (Z.of_N (value (a ++ strip b))) * pow10 (- Z.of_nat (length (strip b))) ==
  inject_Z (Z.of_N (value (a ++ b))) * pow10 (- Z.of_nat (length b)).
Proof.
  destruct (strip_zeros b) as (k & E). rewrite E at 3 4. rewrite app_assoc, (value_app _ (zeros k)), fold_digits, value_zeros, N.add_0_r.
  rewrite app_length. unfold zeros at 2. rewrite repeat_length. unfold zeros. rewrite repeat_length.
  rewrite N2Z.inj_mul, inject_Z_mult, inject_N_pow, Nat2Z.inj_add.
  replace (- (Z.of_nat (length (strip b)) + Z.of_nat k))%Z with (- Z.of_nat (length (strip b)) + - Z.of_nat k)%Z by lia.
  rewrite pow10_plus. pose proof (pow10_inv (Z.of_nat k)) as I.
  setoid_replace (inject_Z (Z.of_N (value (a ++ strip b))) * pow10 (Z.of_nat k) * (pow10 (- Z.of_nat (length (strip b))) * pow10 (- Z.of_nat k)))
    with (inject_Z (Z.of_N (value (a ++ strip b))) * pow10 (- Z.of_nat (length (strip b))) * (pow10 (Z.of_nat k) * pow10 (- Z.of_nat k))) by ring.
  rewrite I. ring.
Qed.
Lemma getMantissa_fraction a b r : a <> [] -> forallb is_digit a = true -> forallb is_digit b = true ->
  match r with [] => True | c :: _ => is_digit c = false /\ Ascii.eqb c "." = false end ->
  getMantissa (with_fraction a b ++ r) = (Some (value (a ++ strip b), (- Z.of_nat (length (strip b)))%Z), r).
Proof.
  intros Ha Da Db Hr. unfold with_fraction. rewrite <- app_assoc. pose proof (strip_digits b Db) as Ds.
  unfold getMantissa. destruct (strip b) as [|c t] eqn:Es.
  - cbn [app]. rewrite span_all; [|exact Da|destruct r; [trivial|apply Hr]]. rewrite !app_nil_r.
    destruct r as [|c' r].
    + destruct a; [easy|]. rewrite app_nil_r. reflexivity.
    + destruct Hr as [_ ->]. destruct a; [easy|]. rewrite app_nil_r. reflexivity.
  - cbn [app]. rewrite span_all; [|exact Da|reflexivity].
    change (c :: t ++ r) with ((c :: t) ++ r).
    change (("."%char =? "."%char)%char) with true. cbv beta iota.
    rewrite span_all; [|exact Ds|destruct r; [trivial|apply Hr]]. cbv beta iota.
    destruct a; [easy|]. cbn [app]. reflexivity.
Qed.
Lemma getExponent_none r : stop r = true -> getExponent r = (Some 0%Z, r).
Proof.
  destruct r as [|c r]; [reflexivity|]. intros H. apply space_cases in H as (_ & _ & A & B & _). unfold getExponent. rewrite A, B. reflexivity.
Qed.
Lemma getExponent_put X r : stop r = true -> getExponent (putExp X ++ r) = (Some X, r).
Proof.
  intros Hr. unfold putExp, getExponent. cbn [app]. change (("e"%char =? "e"%char)%char || ("e"%char =? "E"%char)%char)%bool with true. cbv beta iota zeta.
  set (s := putN (Z.to_N (Z.abs X))). set (z := zeros (2 - length s) ++ s).
  assert (Dz : forallb is_digit z = true) by (unfold z; rewrite forallb_app, zeros_digits; apply putN_digits).
  assert (Ez : value z = Z.to_N (Z.abs X)) by (unfold z; rewrite value_zeros_l; apply putN_value).
  assert (Nz : z <> []). { unfold z. pose proof (putN_nonempty (Z.to_N (Z.abs X))). fold s in H. destruct (zeros (2 - length s)); [exact H|discriminate]. }
  destruct (Z.ltb_spec X 0) as [L|L].
  - cbn [sign]. change (("-"%char =? "-"%char)%char) with true. cbv beta iota.
    rewrite span_all by (try exact Dz; apply stop_digit; exact Hr). rewrite Ez. destruct z; [easy|]. f_equal. f_equal. lia.
  - cbn [sign]. change (("+"%char =? "-"%char)%char) with false. change (("+"%char =? "+"%char)%char) with true. cbv beta iota.
    rewrite span_all by (try exact Dz; apply stop_digit; exact Hr). rewrite Ez. destruct z; [easy|]. f_equal. f_equal. lia.
Qed.

Definition round6 (x : Q) : Q :=
  match Qcompare x 0 with Eq => 0 | Gt => Qred (sixval (six x)) | Lt => Qred (- sixval (six (- x))) end.

(** Digits with a fraction, and the exponent: what [putPos] writes, in the form the reader needs. *)
Lemma putPos_form x : 0 < x -> exists a b X, a <> [] /\ forallb is_digit a = true /\ forallb is_digit b = true /\
  (putPos x = with_fraction a b /\ X = 0%Z \/ putPos x = with_fraction a b ++ putExp X) /\
  inject_Z (Z.of_N (value (a ++ b))) * pow10 (- Z.of_nat (length b) + X) == sixval (six x).
Proof.
  intros Hx. destruct (six_spec x Hx) as [Hd _]. unfold putPos. destruct (six x) as [d X]. cbn [fst] in Hd.
  pose proof (putN_digits (Z.to_N d)) as D. pose proof (putN_value (Z.to_N d)) as V.
  assert (L : length (putN (Z.to_N d)) = 6%nat).
  { destruct (putN_length (Z.to_N d) ltac:(lia)) as [[A B] _].
    assert (5 < N.of_nat (length (putN (Z.to_N d))))%N.
    { apply (N.pow_lt_mono_r_iff 10); [lia|]. eapply N.le_lt_trans; [|exact B]. change (10 ^ 5)%N with 100000%N. lia. }
    assert (N.of_nat (length (putN (Z.to_N d))) - 1 < 6)%N.
    { apply (N.pow_lt_mono_r_iff 10); [lia|]. eapply N.le_lt_trans; [exact A|]. change (10 ^ 6)%N with 1000000%N. lia. }
    lia. }
  set (ds := putN (Z.to_N d)) in *. assert (Vd : Z.of_N (value ds) = d) by (rewrite V; lia).
  assert (Fd : forall k, forallb is_digit (firstn k ds) = true /\ forallb is_digit (skipn k ds) = true).
  { intros k. rewrite <- (firstn_skipn k ds), forallb_app in D. apply andb_true_iff in D. exact D. }
  assert (Fn : forall k, firstn (S k) ds <> []) by (intros k; destruct ds; [discriminate L|discriminate]).
  unfold sixval. cbn [fst snd].
  destruct (Z.leb_spec (-4) X) as [L1|L1]; [destruct (Z.ltb_spec X 6) as [L2|L2]|]; cbn [andb].
  - destruct (Z.leb_spec 0 X) as [L3|L3].
    + exists (firstn (Z.to_nat X + 1) ds), (skipn (Z.to_nat X + 1) ds), 0%Z. repeat split; try apply Fd.
      * rewrite Nat.add_1_r. apply Fn.
      * left. split; reflexivity.
      * rewrite firstn_skipn, Vd, skipn_length, L. replace (- Z.of_nat (6 - (Z.to_nat X + 1)) + 0)%Z with (X - 5)%Z by lia. reflexivity.
    + exists ["0"%char], (zeros (Z.to_nat (- X) - 1) ++ ds), 0%Z. repeat split; try reflexivity; try discriminate.
      * rewrite forallb_app, zeros_digits. exact D.
      * left. split; reflexivity.
      * change (["0"%char] ++ zeros (Z.to_nat (- X) - 1) ++ ds) with (zeros (S (Z.to_nat (- X) - 1)) ++ ds).
        rewrite value_zeros_l, Vd, app_length. unfold zeros. rewrite repeat_length, L.
        replace (- Z.of_nat (Z.to_nat (- X) - 1 + 6) + 0)%Z with (X - 5)%Z by lia. reflexivity.
  - exists (firstn 1 ds), (skipn 1 ds), X. repeat split; try apply Fd; [apply Fn|right; reflexivity|].
    rewrite firstn_skipn, Vd, skipn_length, L. replace (- Z.of_nat (6 - 1) + X)%Z with (X - 5)%Z by lia. reflexivity.
  - exists (firstn 1 ds), (skipn 1 ds), X. repeat split; try apply Fd; [apply Fn|right; reflexivity|].
    rewrite firstn_skipn, Vd, skipn_length, L. replace (- Z.of_nat (6 - 1) + X)%Z with (X - 5)%Z by lia. reflexivity.
Qed.
Lemma wf_nonempty a b : a <> [] -> with_fraction a b <> [].
Proof. destruct a; [easy|]. discriminate. Qed.
Lemma wf_head a b r : a <> [] -> forallb is_digit a = true -> exists c t, with_fraction a b ++ r = c :: t /\ is_digit c = true.
Proof. destruct a as [|c a]; [easy|]. intros _ H. cbn [forallb] in H. apply andb_true_iff in H as [H _]. exists c. eexists. split; [reflexivity|exact H]. Qed.
(** Reading one number. *)
Lemma parse_pos x r : 0 < x -> stop r = true -> exists m k e, getMantissa (putPos x ++ r) = (Some (m, k), snd (getMantissa (putPos x ++ r))) /\
  getExponent (snd (getMantissa (putPos x ++ r))) = (Some e, r) /\ inject_Z (Z.of_N m) * pow10 (k + e) == sixval (six x) /\
  exists c t, putPos x ++ r = c :: t /\ is_digit c = true.
Proof.
  intros Hx Hr. destruct (putPos_form x Hx) as (a & b & X & Na & Da & Db & F & V).
  assert (V' : inject_Z (Z.of_N (value (a ++ strip b))) * pow10 (- Z.of_nat (length (strip b)) + X) == sixval (six x)).
  { rewrite pow10_plus, Qmult_assoc, strip_value, <- Qmult_assoc, <- pow10_plus. exact V. }
  exists (value (a ++ strip b)), (- Z.of_nat (length (strip b)))%Z, X. destruct F as [[F E0]|F]; rewrite F.
  - subst X. rewrite getMantissa_fraction; [|assumption..|].
    + cbn [snd]. rewrite getExponent_none by exact Hr. repeat split; [exact V'|]. apply wf_head; assumption.
    + destruct r; [trivial|]. apply space_cases in Hr. tauto.
  - rewrite <- app_assoc. rewrite getMantissa_fraction; [|assumption..|].
    + cbn [snd]. rewrite getExponent_put by exact Hr. repeat split; [exact V'|]. apply wf_head; assumption.
    + unfold putExp. cbn [app]. split; reflexivity.
Qed.
Lemma getDec_putQ x w r : all_space w = true -> stop r = true -> getDec (mkI (w ++ putQ x ++ r) false) = (Some (round6 x), mkI r false).
Proof.
  intros Hw Hr. unfold putQ, round6. destruct (Qcompare_spec x 0) as [E|L|G].
  - unfold getDec. rewrite sentry_app; [|exact Hw|discriminate|reflexivity]. cbn [app sign].
    change (("0"%char =? "-"%char)%char) with false. change (("0"%char =? "+"%char)%char) with false. cbv beta iota.
    change ("0"%char :: r) with (with_fraction ["0"%char] [] ++ r). rewrite getMantissa_fraction; [|discriminate|reflexivity|reflexivity|].
    + cbn [strip app length]. rewrite getExponent_none by exact Hr. cbv beta iota zeta. f_equal.
    + destruct r; [trivial|]. apply space_cases in Hr. tauto.
  - assert (Hx : 0 < - x) by lra. destruct (parse_pos (- x) r Hx Hr) as (m & k & e & M & E & V & _).
    unfold getDec. rewrite sentry_app; [|exact Hw|discriminate|reflexivity]. cbn [app sign].
    change (("-"%char =? "-"%char)%char) with true. cbv beta iota. rewrite M, E. cbv beta iota zeta. do 2 f_equal.
    apply Qred_complete. rewrite V. reflexivity.
  - destruct (parse_pos x r G Hr) as (m & k & e & M & E & V & c & t & Hc & D). unfold getDec.
    rewrite sentry_app; [|exact Hw|rewrite Hc; discriminate|rewrite Hc; apply digit_nonspace; exact D].
    assert (Es : sign (putPos x ++ r) = (false, putPos x ++ r)).
    { rewrite Hc. cbn [sign]. destruct (digit_cases c D) as (_ & -> & -> & _). reflexivity. }
    rewrite Es, M, E. cbv beta iota zeta. do 2 f_equal. apply Qred_complete. exact V.
Qed.

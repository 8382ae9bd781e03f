(** Rounding errors: a number is near another if their quotient is close to one. *)
From Coq Require Import Reals Lra Psatz.
From Verif Require Import P_Base M_Vec M_Round S_Round.
Local Open Scope R_scope.

Lemma Rabs_bounds x a : Rabs x <= a -> - a <= x <= a.
Proof. unfold Rabs. destruct (Rcase_abs x); lra. Qed.

Section Round.
Variable rnd : R -> R.
Variable u : R.
Hypothesis HR : rounds rnd u.
Local Notation q := (1 - u).

Lemma q_pos : 0 < q. Proof. destruct HR. lra. Qed.
Lemma q_le1 : q <= 1. Proof. destruct HR. lra. Qed.
Lemma qk_pos k : 0 < q ^ k. Proof. apply pow_lt, q_pos. Qed.
Lemma qk_le1 k : q ^ k <= 1.
Proof. pose proof q_pos. pose proof q_le1. pose proof (pow_incr q 1 k ltac:(lra)) as H1. rewrite pow1 in H1. exact H1. Qed.
Lemma qk_mono j k : (j <= k)%nat -> q ^ k <= q ^ j.
Proof. intros H. replace k with (j + (k - j))%nat by lia. rewrite pow_add. pose proof (qk_pos j). pose proof (qk_le1 (k - j)). nra. Qed.

(** A factor made of [k] roundings. *)
Definition fac (k : nat) (t : R) : Prop := q ^ k <= t /\ t * q ^ k <= 1.
Definition near (k : nat) (x' x : R) : Prop := exists t, x' = x * t /\ fac k t.
Lemma fac_pos k t : fac k t -> 0 < t. Proof. intros [H _]. pose proof (qk_pos k). lra. Qed.
Lemma fac_one k : fac k 1. Proof. split; [apply qk_le1|]. pose proof (qk_le1 k). lra. Qed.
Lemma fac_mono j k t : (j <= k)%nat -> fac j t -> fac k t.
Proof. intros L F. pose proof (fac_pos _ _ F). destruct F as [A B]. pose proof (qk_mono j k L). split; [lra|]. nra. Qed.
Lemma fac_mul j k s t : fac j s -> fac k t -> fac (j + k) (s * t).
Proof.
  intros F G. pose proof (fac_pos _ _ F). pose proof (fac_pos _ _ G). destruct F as [A B], G as [C D]. pose proof (qk_pos j). pose proof (qk_pos k). unfold fac. rewrite pow_add. split.
  - apply Rmult_le_compat; lra.
  - replace (s * t * (q ^ j * q ^ k)) with ((s * q ^ j) * (t * q ^ k)) by ring. pose proof (Rmult_le_compat (s * q ^ j) 1 (t * q ^ k) 1 ltac:(nra) ltac:(nra) B D). lra.
Qed.
Lemma fac_inv k t : fac k t -> fac k (/ t).
Proof.
  intros F. pose proof (fac_pos _ _ F) as P. destruct F as [A B]. pose proof (qk_pos k). split.
  - apply (Rmult_le_reg_l t); [exact P|]. rewrite Rinv_r by lra. exact B.
  - apply (Rmult_le_reg_l t); [exact P|]. replace (t * (/ t * q ^ k)) with (q ^ k) by (field; lra). lra.
Qed.
Lemma fac_rnd x : exists t, rnd x = x * t /\ fac 1 t.
Proof.
  destruct HR as [U E]. specialize (E x). destruct (Req_dec x 0) as [->|N].
  - exists 1. split; [|apply fac_one]. rewrite Rabs_R0, Rmult_0_r in E. pose proof (Rabs_pos (rnd 0 - 0)). assert (Z : Rabs (rnd 0 - 0) = 0) by lra.
    destruct (Req_dec (rnd 0 - 0) 0) as [Q|Q]; [lra|]. apply Rabs_pos_lt in Q. lra.
  - exists (rnd x / x). split; [field; exact N|].
    assert (D : Rabs (rnd x / x - 1) <= u).
    { replace (rnd x / x - 1) with ((rnd x - x) / x) by (field; exact N). unfold Rdiv. rewrite Rabs_mult, Rabs_inv. pose proof (Rabs_pos_lt _ N).
      apply (Rmult_le_reg_r (Rabs x)); [assumption|]. rewrite Rmult_assoc, Rinv_l by lra. lra. }
    apply Rabs_bounds in D. unfold fac. rewrite pow_1. split; [lra|]. nra.
Qed.
Lemma fac_sqrt k t : fac (2 * k) t -> fac k (sqrt t).
Proof.
  intros F. pose proof (fac_pos _ _ F) as P. destruct F as [A B]. replace (2 * k)%nat with (k + k)%nat in * by lia. rewrite pow_add in *. pose proof (qk_pos k). split.
  - rewrite <- (sqrt_square (q ^ k)) by lra. apply sqrt_le_1_alt. exact A.
  - rewrite <- (sqrt_square (q ^ k)) by lra. rewrite <- sqrt_mult_alt by lra. pose proof (sqrt_le_1_alt _ _ B) as H1. rewrite sqrt_1 in H1. exact H1.
Qed.

Lemma near_refl k x : near k x x. Proof. exists 1. split; [ring|apply fac_one]. Qed.
Lemma near_mono j k x' x : (j <= k)%nat -> near j x' x -> near k x' x.
Proof. intros L (t & E & F). exists t. split; [exact E|apply (fac_mono j); assumption]. Qed.
Lemma near_trans j k x'' x' x : near j x'' x' -> near k x' x -> near (j + k) x'' x.
Proof. intros (t & -> & F) (s & -> & G). exists (t * s). split; [ring|apply fac_mul; assumption]. Qed.
Lemma near_rnd x : near 1 (rnd x) x.
Proof. destruct (fac_rnd x) as (t & E & F). exists t. auto. Qed.
Lemma near_rnd_of k x' x : near k x' x -> near (S k) (rnd x') x.
Proof. intros H. apply (near_trans 1 k _ x'); [apply near_rnd|exact H]. Qed.
Lemma near_mul j k x' x y' y : near j x' x -> near k y' y -> near (j + k) (x' * y') (x * y).
Proof. intros (t & -> & F) (s & -> & G). exists (t * s). split; [ring|apply fac_mul; assumption]. Qed.
Lemma near_inv k x' x : near k x' x -> near k (/ x') (/ x).
Proof. intros (t & -> & F). exists (/ t). split; [apply Rinv_mult|apply fac_inv; exact F]. Qed.
Lemma near_div j k x' x y' y : near j x' x -> near k y' y -> near (j + k) (x' / y') (x / y).
Proof. intros A B. apply near_mul; [exact A|apply near_inv, B]. Qed.
Lemma near_opp k x' x : near k x' x -> near k (- x') (- x).
Proof. intros (t & -> & F). exists t. split; [ring|exact F]. Qed.
Lemma near_abs k x' x : near k x' x -> near k (Rabs x') (Rabs x).
Proof. intros (t & -> & F). exists t. split; [rewrite Rabs_mult, (Rabs_right t); [reflexivity|pose proof (fac_pos _ _ F); lra]|exact F]. Qed.
Lemma near_sqrt k x' x : 0 <= x -> near (2 * k) x' x -> near k (sqrt x') (sqrt x).
Proof. intros P (t & -> & F). exists (sqrt t). split; [apply sqrt_mult_alt; exact P|apply fac_sqrt, F]. Qed.
Lemma near_nonneg k x' x : near k x' x -> 0 <= x -> 0 <= x'.
Proof. intros (t & -> & F) P. pose proof (fac_pos _ _ F). nra. Qed.
Lemma near_add k x' x y' y : 0 <= x -> 0 <= y -> near k x' x -> near k y' y -> near k (x' + y') (x + y).
Proof.
  intros Hx Hy (t & -> & F) (s & -> & G). destruct (Req_dec (x + y) 0) as [Z|N].
  - assert (x = 0) by lra. assert (y = 0) by lra. subst. exists 1. split; [ring|apply fac_one].
  - exists ((x * t + y * s) / (x + y)). split; [field; exact N|]. destruct F as [A B], G as [C D]. assert (P : 0 < x + y) by lra. split.
    + apply (Rmult_le_reg_r (x + y)); [exact P|]. unfold Rdiv. rewrite Rmult_assoc, Rinv_l by lra. nra.
    + apply (Rmult_le_reg_r (x + y)); [exact P|]. replace ((x * t + y * s) / (x + y) * q ^ k * (x + y)) with ((x * t + y * s) * q ^ k) by (field; lra). nra.
Qed.

(** The error bounds. *)
Lemma bernoulli k : 1 - INR k * u <= q ^ k.
Proof.
  destruct HR as [U _]. induction k as [|k IH]; [simpl; lra|]. rewrite S_INR. cbn [pow]. pose proof (qk_pos k). pose proof (pos_INR k). pose proof (qk_le1 k).
  assert (q * (1 - INR k * u) <= q * q ^ k) by (apply Rmult_le_compat_l; [lra|exact IH]). nra.
Qed.
(** (1-u)^-k - 1 *)
Definition eps (k : nat) : R := / q ^ k - 1.
Lemma eps_nonneg k : 0 <= eps k.
Proof. unfold eps. pose proof (qk_pos k). pose proof (qk_le1 k). pose proof (Rinv_le_contravar (q ^ k) 1 ltac:(lra) ltac:(lra)) as H1. rewrite Rinv_1 in H1. lra. Qed.
Lemma eps_mono j k : (j <= k)%nat -> eps j <= eps k.
Proof. intros L. unfold eps. pose proof (qk_pos k). pose proof (qk_mono j k L). assert (/ q ^ j <= / q ^ k); [|lra]. apply Rinv_le_contravar; lra. Qed.
Lemma eps_gam k : few u k -> eps k <= gam u k.
Proof.
  unfold few, gam, eps. intros H. pose proof (bernoulli k). pose proof (qk_pos k). replace (INR k * u / (1 - INR k * u)) with (/ (1 - INR k * u) - 1) by (field; lra).
  assert (/ q ^ k <= / (1 - INR k * u)); [|lra]. apply Rinv_le_contravar; lra.
Qed.
Lemma eps_comp j k : (1 + eps j) * (1 + eps k) = 1 + eps (j + k).
Proof. unfold eps. rewrite pow_add, Rinv_mult. ring. Qed.
Lemma fac_eps k t : fac k t -> Rabs (t - 1) <= eps k.
Proof.
  intros [A B]. pose proof (qk_pos k) as P. unfold eps. assert (U : t <= / q ^ k).
  { apply (Rmult_le_reg_r (q ^ k)); [exact P|]. rewrite Rinv_l by lra. exact B. }
  apply Rabs_le. split; [|lra]. assert (L : 1 - / q ^ k + 1 <= q ^ k); [|lra].
  assert (0 <= (q ^ k - 1) * (q ^ k - 1)) by nra. apply (Rmult_le_reg_r (q ^ k)); [exact P|]. replace ((1 - / q ^ k + 1) * q ^ k) with (2 * q ^ k - 1) by (field; lra). nra.
Qed.
Lemma fac_upper k t : fac k t -> t <= 1 + eps k.
Proof. intros F. pose proof (fac_eps k t F) as H. apply Rabs_bounds in H. lra. Qed.
Lemma near_err k x' x : near k x' x -> Rabs (x' - x) <= eps k * Rabs x.
Proof.
  intros (t & -> & F). replace (x * t - x) with ((t - 1) * x) by ring. rewrite Rabs_mult. apply Rmult_le_compat_r; [apply Rabs_pos|apply fac_eps, F].
Qed.
(** [close k b x' x]: |x'| and |x| relate to a magnitude [b] as after [k] roundings. *)
Definition close (k : nat) (b x' x : R) : Prop := Rabs (x' - x) <= eps k * b /\ Rabs x <= b.
Lemma near_close k b x' x : Rabs x <= b -> near k x' x -> close k b x' x.
Proof. intros H N. split; [|exact H]. pose proof (near_err _ _ _ N). pose proof (eps_nonneg k). nra. Qed.
Lemma close_nonneg k b x' x : close k b x' x -> 0 <= b. Proof. intros [_ H]. pose proof (Rabs_pos x). lra. Qed.
Lemma close_mono j k b c x' x : (j <= k)%nat -> b <= c -> close j b x' x -> close k c x' x.
Proof. intros L B C. pose proof (close_nonneg _ _ _ _ C). destruct C as [A D]. pose proof (eps_mono j k L). pose proof (eps_nonneg j). split; [|lra]. nra. Qed.
Lemma close_add k b c x' x y' y : close k b x' x -> close k c y' y -> close k (b + c) (x' + y') (x + y).
Proof.
  intros [A B] [C D]. split.
  - replace (x' + y' - (x + y)) with ((x' - x) + (y' - y)) by ring. pose proof (Rabs_triang (x' - x) (y' - y)). lra.
  - pose proof (Rabs_triang x y). lra.
Qed.
Lemma close_opp k b x' x : close k b x' x -> close k b (- x') (- x).
Proof. intros [A B]. split; [replace (- x' - - x) with (- (x' - x)) by ring|]; rewrite Rabs_Ropp; assumption. Qed.
Lemma close_sub k b c x' x y' y : close k b x' x -> close k c y' y -> close k (b + c) (x' - y') (x - y).
Proof. intros A B. unfold Rminus. apply close_add; [exact A|apply close_opp, B]. Qed.
Lemma close_fac j k b x' x t : close j b x' x -> fac k t -> close (j + k) b (x' * t) x.
Proof.
  intros C F. pose proof (close_nonneg _ _ _ _ C) as P. destruct C as [A B]. split; [|exact B].
  replace (x' * t - x) with ((x' - x) * t + x * (t - 1)) by ring. pose proof (fac_pos _ _ F). pose proof (fac_upper _ _ F). pose proof (fac_eps _ _ F) as E.
  pose proof (Rabs_triang ((x' - x) * t) (x * (t - 1))) as T. rewrite !Rabs_mult, (Rabs_right t) in T by lra. pose proof (eps_comp j k). pose proof (eps_nonneg j). pose proof (eps_nonneg k).
  pose proof (Rabs_pos (x' - x)). pose proof (Rabs_pos x). pose proof (Rabs_pos (t - 1)).
  assert (Rabs (x' - x) * t <= eps j * b * (1 + eps k)) by (apply Rmult_le_compat; lra). assert (Rabs x * Rabs (t - 1) <= b * eps k) by (apply Rmult_le_compat; lra).
  replace (eps (j + k) * b) with (eps j * b * (1 + eps k) + b * eps k); [lra|]. nra.
Qed.
Lemma close_rnd k b x' x : close k b x' x -> close (S k) b (rnd x') x.
Proof. intros C. destruct (fac_rnd x') as (t & -> & F). replace (S k) with (k + 1)%nat by lia. apply close_fac; assumption. Qed.
Lemma close_mul_near j k b x' x y' y : close j b x' x -> near k y' y -> close (j + k) (b * Rabs y) (x' * y') (x * y).
Proof.
  intros C (t & -> & F). replace (x' * (y * t)) with ((x' * y) * t) by ring. apply close_fac; [|exact F]. destruct C as [A B]. pose proof (Rabs_pos y). split.
  - replace (x' * y - x * y) with ((x' - x) * y) by ring. rewrite Rabs_mult. nra.
  - rewrite Rabs_mult. nra.
Qed.
Lemma close_abs k b x' x : close k b x' x -> close k b (Rabs x') (Rabs x).
Proof. intros [A B]. split; [pose proof (Rabs_triang_inv2 x' x); lra|]. rewrite Rabs_Rabsolu. exact B. Qed.
Lemma close_err k b x' x : few u k -> close k b x' x -> Rabs (x' - x) <= gam u k * b.
Proof. intros F C. pose proof (close_nonneg _ _ _ _ C). destruct C as [A _]. pose proof (eps_gam k F). nra. Qed.
Lemma near_gam k x' x : few u k -> near k x' x -> Rabs (x' - x) <= gam u k * Rabs x.
Proof. intros F N. apply close_err; [exact F|]. apply near_close; [lra|exact N]. Qed.
Lemma close_sign k b x' x : few u k -> gam u k * b < Rabs x -> close k b x' x -> (0 < x' <-> 0 < x).
Proof.
  intros F G C. pose proof (close_err k b x' x F C) as E. apply Rabs_bounds in E. unfold Rabs in G. destruct (Rcase_abs x); split; intros; lra.
Qed.
End Round.

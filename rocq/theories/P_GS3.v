(** Gram-Schmidt on two and three vectors: lengths, areas, volumes. *)
From Coq Require Import Reals Lra Psatz.
From Verif Require Import P_Base M_Vec S_Vec P_Vec P_GS.
Local Open Scope R_scope.

Lemma nonneg_sq_eq (a b : R) : 0 <= a -> a * a = b * b -> a = Rabs b.
Proof.
  intros Ha H. apply Rsqr_inj; [assumption|apply Rabs_pos|]. rewrite <- Rsqr_abs. exact H.
Qed.

(** Gram determinant of two vectors, any dimension. *)
Lemma gs2_norms (u v : rv) : length u = length v -> sprod u u <> 0 ->
  exists e0 e1 n0 n1, gramSchmidtN (K := numR) [u; v] = Ok ([e0; e1], [n0; n1]) /\
    n0 = normEuclid (K := numR) u /\ 0 < n0 /\ 0 <= n1 /\
    (n0 * n1) * (n0 * n1) = sprod u u * sprod v v - sprod u v * sprod u v /\
    (n1 <> 0 -> sprod e1 e1 = 1 /\ sprod u e1 = 0).
Proof.
  intros L Hu. rewrite gsn_start. rewrite gs_loop_eq, gs_loop_eq. cbn [gs_loop app map].
  set (w0 := gs_next [] u). set (k := 1 / sprod w0 w0). set (w1 := gs_next [(w0, k)] v).
  exists (fst (nz (w0, k))), (fst (nz (w1, 1 / sprod w1 w1))), (normEuclid (K := numR) w0), (normEuclid (K := numR) w1).
  split; [reflexivity|].
  assert (E0 : w0 = u) by reflexivity.
  assert (O : sprod w1 u = 0).
  { unfold w1, gs_next. rewrite gs_coef_sprod.
    rewrite (gs_subtract_sprod (length u)); [|simpl; rewrite E0; repeat constructor|congruence].
    simpl. unfold k. rewrite E0. field. assumption. }
  assert (Sq : sprod w1 w1 = sprod v v - sprod u v * sprod u v / sprod u u).
  { transitivity (sprod w1 v).
    - unfold w1 at 1, gs_next. rewrite gs_coef_sprod.
      rewrite (gs_subtract_sprod (length u)); [|simpl; rewrite E0; repeat constructor|congruence].
      simpl. rewrite E0, (sprod_comm u w1), O, (sprod_comm v w1). ring.
    - unfold w1, gs_next. rewrite gs_coef_sprod.
      rewrite (gs_subtract_sprod (length u)); [|simpl; rewrite E0; repeat constructor|congruence].
      simpl. unfold k. rewrite E0, (sprod_comm v u). field. assumption. }
  assert (N0 : normEuclid (K := numR) u <> 0) by (intros E; apply Hu; rewrite <- norm_sq, E; ring).
  assert (P0 : 0 <= normEuclid (K := numR) u) by apply norm_nonneg.
  unfold nz, gsn_one. cbn [fst snd]. splits.
  - reflexivity.
  - change (0 < normEuclid (K := numR) u). lra.
  - apply norm_nonneg.
  - transitivity ((normEuclid (K := numR) w0 * normEuclid (K := numR) w0) * (normEuclid (K := numR) w1 * normEuclid (K := numR) w1)).
    + unfold normEuclid. cbn [nsqrt numR]. ring.
    + rewrite !norm_sq, Sq, E0. field. assumption.
  - intros Hn1. assert (Hs : sprod w1 w1 <> 0) by (intros E; apply Hn1; rewrite <- norm_sq in E; destruct (Rmult_integral _ _ E); assumption).
    split.
    + apply (nz_unit w1 0). assumption.
    + rewrite sprod_comm. unfold vdiv. rewrite sprod_vscale_l, O. ring.
Qed.

Definition d3 (u v w : rv) : R :=
  det3 (nth 0 u 0) (nth 1 u 0) (nth 2 u 0) (nth 0 v 0) (nth 1 v 0) (nth 2 v 0) (nth 0 w 0) (nth 1 w 0) (nth 2 w 0).
Lemma len3 (u : rv) : length u = 3%nat -> exists a b c, u = [a; b; c].
Proof. destruct u as [|a [|b [|c [|]]]]; try discriminate. intros _. eauto. Qed.
Lemma d3_gram u v w : length u = 3%nat -> length v = 3%nat -> length w = 3%nat ->
  sprod u v = 0 -> sprod u w = 0 -> sprod v w = 0 ->
  d3 u v w * d3 u v w = sprod u u * sprod v v * sprod w w.
Proof.
  intros Hu Hv Hw H1 H2 H3.
  destruct (len3 u Hu) as (u0 & u1 & u2 & ->). destruct (len3 v Hv) as (v0 & v1 & v2 & ->).
  destruct (len3 w Hw) as (w0 & w1 & w2 & ->). simpl in H1, H2, H3. unfold d3, det3. simpl.
  set (uu := u0*u0+(u1*u1+(u2*u2+0))). set (vv := v0*v0+(v1*v1+(v2*v2+0))). set (ww := w0*w0+(w1*w1+(w2*w2+0))).
  set (uv := u0*v0+(u1*v1+(u2*v2+0))) in *. set (uw := u0*w0+(u1*w1+(u2*w2+0))) in *. set (vw := v0*w0+(v1*w1+(v2*w2+0))) in *.
  transitivity (uu*vv*ww + 2*uv*uw*vw - uu*vw*vw - vv*uw*uw - ww*uv*uv).
  - unfold uu, vv, ww, uv, uw, vw. ring.
  - rewrite H1, H2, H3. ring.
Qed.

(** Three vectors of the space: the product of the norms is the absolute value of the determinant, and the
    third result is a unit vector orthogonal to the first two inputs, turned to the side of the third. *)
Lemma gs3_norms (u v w : rv) : length u = 3%nat -> length v = 3%nat -> length w = 3%nat ->
  sprod u u * sprod v v - sprod u v * sprod u v <> 0 ->
  exists e0 e1 e2 n0 n1 n2, gramSchmidtN (K := numR) [u; v; w] = Ok ([e0; e1; e2], [n0; n1; n2]) /\
    0 < n0 /\ 0 < n1 /\ 0 <= n2 /\
    (n0 * n1) * (n0 * n1) = sprod u u * sprod v v - sprod u v * sprod u v /\
    n0 * n1 * n2 = Rabs (d3 u v w) /\
    length e2 = 3%nat /\
    (n2 <> 0 -> sprod e2 e2 = 1 /\ sprod e2 u = 0 /\ sprod e2 v = 0 /\ sprod e2 w = n2).
Proof.
  intros Lu Lv Lw HG.
  assert (Hu : sprod u u <> 0).
  { intros E. pose proof (sprod_cs u v ltac:(congruence)). rewrite E in *.
    pose proof (sprod_zero_inv u E) as Z. apply HG. rewrite Z, sprod_zero_l. ring. }
  destruct (gs2_norms u v ltac:(congruence) Hu) as (? & ? & n0 & n1 & E2 & En0 & P0 & P1 & Hsq & _).
  assert (P1' : 0 < n1).
  { destruct (Req_EM_T n1 0) as [->|]; [|lra]. exfalso. apply HG. rewrite <- Hsq. ring. }
  rewrite gsn_start in E2. rewrite gs_loop_eq, gs_loop_eq in E2. cbn [gs_loop app map] in E2.
  rewrite gsn_start. rewrite gs_loop_eq, gs_loop_eq, gs_loop_eq. cbn [gs_loop app map].
  set (w0 := gs_next [] u) in *. set (k0 := 1 / sprod w0 w0) in *. set (w1 := gs_next [(w0, k0)] v) in *.
  set (k1 := 1 / sprod w1 w1) in *. set (w2 := gs_next [(w0, k0); (w1, k1)] w).
  assert (E0 : w0 = u) by reflexivity.
  assert (Q1 : n1 = normEuclid (K := numR) w1) by (injection E2 as _ _ _ Q; symmetry; exact Q). clear E2.
  assert (S1 : sprod w1 w1 <> 0) by (rewrite <- norm_sq, <- Q1; apply Rmult_integral_contrapositive_currified; lra).
  (* orthogonality *)
  assert (I1 : gsinv 3 [u] [(w0, k0)]).
  { apply (gsinv_step 3 [] [] u); [apply gsinv_nil|assumption|]. exact Hu. }
  assert (I2 : gsinv 3 ([u] ++ [v]) ([(w0, k0)] ++ [(w1, k1)])).
  { apply (gsinv_step 3 [u] [(w0, k0)] v); [assumption|assumption|exact S1]. }
  assert (O20 : sprod w2 w0 = 0 /\ sprod w2 w1 = 0).
  { split; unfold w2, gs_next; rewrite gs_coef_sprod.
    - apply (gs_step_ortho 3 [(w0, k0); (w1, k1)] w (w0, k0)); [|assumption|apply (gi_ortho _ _ _ I2)|left; reflexivity].
      pose proof (gi_lens _ _ _ I2) as HL. rewrite Forall_map in HL. exact HL.
    - apply (gs_step_ortho 3 [(w0, k0); (w1, k1)] w (w1, k1)); [|assumption|apply (gi_ortho _ _ _ I2)|right; left; reflexivity].
      pose proof (gi_lens _ _ _ I2) as HL. rewrite Forall_map in HL. exact HL. }
  destruct O20 as [O20 O21].
  assert (O10 : sprod w1 w0 = 0).
  { apply (gsinv_ortho _ _ _ I2 1%nat 0%nat); [lia|reflexivity|reflexivity]. }
  assert (L1 : length w1 = 3%nat) by (apply (gs_next_length 3 [u]); assumption).
  assert (L2 : length w2 = 3%nat) by (apply (gs_next_length 3 ([u] ++ [v])); assumption).
  (* explicit form of the results *)
  set (c := sprod v w0 * k0). set (c1 := sprod w w0 * k0). set (c2 := sprod w w1 * k1).
  assert (F1 : w1 = vsub v (vscale (K := numR) w0 c)) by (unfold w1, gs_next; rewrite gs_coef_sprod; reflexivity).
  assert (F2 : w2 = vsub (vsub w (vscale (K := numR) w0 c1)) (vscale (K := numR) w1 c2))
    by (unfold w2, gs_next; rewrite gs_coef_sprod; reflexivity).
  assert (D : d3 w0 w1 w2 = d3 u v w).
  { rewrite F2, F1, E0. generalize c c1 c2. clear - Lu Lv Lw. intros c c1 c2.
    destruct (len3 u Lu) as (u0 & u1 & u2 & ->). destruct (len3 v Lv) as (v0 & v1 & v2 & ->).
    destruct (len3 w Lw) as (x0 & x1 & x2 & ->). unfold d3, det3. simpl. ring. }
  assert (G : d3 w0 w1 w2 * d3 w0 w1 w2 = sprod w0 w0 * sprod w1 w1 * sprod w2 w2).
  { apply d3_gram; try assumption; rewrite ?E0; try assumption; rewrite sprod_comm; assumption. }
  exists (fst (nz (w0, k0))), (fst (nz (w1, k1))), (fst (nz (w2, 1 / sprod w2 w2))), n0, n1, (normEuclid (K := numR) w2).
  splits.
  - rewrite En0, Q1. reflexivity.
  - assumption.
  - assumption.
  - apply norm_nonneg.
  - assumption.
  - rewrite <- D. apply nonneg_sq_eq.
    + pose proof (norm_nonneg w2). apply Rmult_le_pos; [apply Rmult_le_pos; lra|assumption].
    + rewrite G. rewrite <- !norm_sq, <- Q1. rewrite E0, <- En0. ring.
  - simpl. unfold vdiv. rewrite vscale_length. assumption.
  - intros Hn2.
    assert (S2 : sprod w2 w2 <> 0) by (intros E; apply Hn2; rewrite <- norm_sq in E; destruct (Rmult_integral _ _ E); assumption).
    assert (Hu0 : sprod w2 u = 0) by exact O20.
    assert (Hv0 : sprod w2 v = 0).
    { rewrite F1, sprod_comm in O21. rewrite sprod_vsub_l in O21 by (rewrite vscale_length, E0; congruence).
      rewrite sprod_vscale_l, (sprod_comm w0), O20, (sprod_comm v) in O21. lra. }
    assert (Hw0 : sprod w2 w = sprod w2 w2).
    { transitivity (sprod (vsub (vsub w (vscale (K := numR) w0 c1)) (vscale (K := numR) w1 c2)) w2); [|rewrite <- F2; reflexivity].
      rewrite !sprod_vsub_l by (rewrite ?vsub_length, ?vscale_length; rewrite ?vscale_length, ?E0; congruence).
      rewrite !sprod_vscale_l, (sprod_comm w0 w2), (sprod_comm w1 w2), O20, O21, (sprod_comm w w2). ring. }
    splits.
    + apply nz_unit. assumption.
    + simpl. unfold vdiv. rewrite sprod_vscale_l, Hu0. ring.
    + simpl. unfold vdiv. rewrite sprod_vscale_l, Hv0. ring.
    + simpl. unfold vdiv. rewrite sprod_vscale_l, Hw0, <- norm_sq. cbn [ndiv none_ numR].
      unfold normEuclid in *. cbn [nsqrt numR] in *. field. assumption.
Qed.

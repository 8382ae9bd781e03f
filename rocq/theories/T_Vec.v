(** Theorems about vectors and the Gram-Schmidt process: C41, C42, C43. Exact real arithmetic ([numR]). *)
From Coq Require Import Reals Lra Psatz.
From Verif Require Import P_Base M_Vec S_Vec P_Vec P_GS P_GS3.
Local Open Scope R_scope.
Ltac dopt H p E := match type of H with option_map _ ?t = _ => destruct t as [p|] eqn:E; [|discriminate H] end.

(** C41. Without normalisation. For at least one vector, all of the same dimension: there are as many
    results; if the input is linearly independent the results are non-zero and pairwise orthogonal, every
    result is a combination of the inputs up to it and every input is its result plus a combination of the
    earlier results. The input is linearly independent exactly when no result is zero. *)
Theorem C41_gram_schmidt : forall d vs,
  vs <> [] -> Forall (fun v : list R => length v = d) vs ->
  exists ws, gramSchmidt (K := numR) vs = Ok ws /\
  (lin_indep d vs <-> forall w, In w ws -> sprod w w <> 0) /\
  (lin_indep d vs ->
     length ws = length vs /\ orthogonal_family ws /\ (forall w, In w ws -> 0 < sprod w w) /\
     (forall i w, nth_error ws i = Some w -> in_span d (firstn (S i) vs) w) /\
     (forall i w v, nth_error ws i = Some w -> nth_error vs i = Some v ->
        exists s, in_span d (firstn i ws) s /\ is_axpy v s 1 w)).
Proof.
  intros d vs Hne HF. destruct vs as [|v r]; [congruence|]. rewrite gs_start. eexists. split; [reflexivity|].
  assert (Hpos : lin_indep d (v :: r) -> gsinv d (v :: r) (gs_loop (K := numR) [] (v :: r)))
    by (intros Hl; apply (gs_loop_indep d (v :: r) [] []); [apply gsinv_nil|assumption|assumption]).
  split; [split|].
  - intros Hl w Hw. pose proof (gsinv_pos _ _ _ (Hpos Hl) w Hw). lra.
  - intros Hnz. apply (gsinv_indep d _ (gs_loop (K := numR) [] (v :: r))).
    apply (gs_loop_nonzero d (v :: r) [] []); [apply gsinv_nil|assumption|].
    intros p Hp. apply Hnz. apply in_map. assumption.
  - intros Hl. pose proof (Hpos Hl) as I. splits.
    + rewrite map_length. apply (gi_len _ _ _ I).
    + eapply gsinv_ortho; eassumption.
    + intros w Hw. eapply gsinv_pos; eassumption.
    + intros i w Hw. rewrite nth_error_map in Hw. destruct (nth_error _ i) as [p|] eqn:Ep; [|discriminate].
      injection Hw as <-. eapply gi_fwd; eassumption.
    + intros i w x Hw Hx. rewrite nth_error_map in Hw. destruct (nth_error (gs_loop _ _) i) as [p|] eqn:Ep; [|discriminate].
      injection Hw as <-. destruct (gi_back _ _ _ I i p x Ep Hx) as (s & Hs & E). exists s. split; [assumption|].
      rewrite E. replace (fst p) with (vscale (K := numR) (fst p) 1) at 1
        by (apply nth_ext_R; [apply vscale_length|]; intros; rewrite vscale_nth; ring).
      apply is_axpy_vadd. pose proof (gi_fwd _ _ _ I i p Ep) as Hf.
      apply span_length in Hs, Hf. cc.
Qed.
Print Assumptions C41_gram_schmidt.

(** C41. With normalisation: the results are the normalised results of the other version and the norms
    are their lengths (whenever those are not zero), so for independent input the results are
    orthonormal, the norms positive, and input i is (norm i) * (result i) plus a combination of the
    earlier results. *)
Theorem C41_gram_schmidt_normalised : forall d vs,
  vs <> [] -> Forall (fun v : list R => length v = d) vs ->
  exists es ns, gramSchmidtN (K := numR) vs = Ok (es, ns) /\
  (lin_indep d vs <-> forall n, In n ns -> n <> 0) /\
  (lin_indep d vs ->
     length es = length vs /\ length ns = length vs /\
     orthogonal_family es /\ unit_family es /\ (forall n, In n ns -> 0 < n) /\
     (forall i v e n, nth_error vs i = Some v -> nth_error es i = Some e -> nth_error ns i = Some n ->
        in_span d (firstn (S i) vs) e /\
        exists s, in_span d (firstn i es) s /\ is_axpy v s n e)).
Proof.
  intros d vs Hne HF. destruct (C41_gram_schmidt d vs Hne HF) as (ws & E & Hiff & Hli).
  destruct vs as [|v r]; [congruence|]. rewrite gs_start in E.
  assert (Ew0 : ws = map fst (gs_loop (K := numR) [] (v :: r)))
    by (assert (J : forall A (a b : A), Ok a = Ok b -> a = b) by (intros A a b H; injection H; auto);
        symmetry; exact (J _ _ _ E)).
  clear E. subst ws. rewrite gsn_start. set (L := gs_loop (K := numR) [] (v :: r)) in *.
  eexists _, _. split; [reflexivity|].
  assert (Hn : forall w : rv, normEuclid (K := numR) w <> 0 <-> sprod w w <> 0).
  { intros w. rewrite <- norm_sq. split; intros H H'; apply H.
    - destruct (Rmult_integral _ _ H'); assumption.
    - rewrite H'. ring. }
  split; [|intros Hl; destruct (Hli Hl) as (H1 & H2 & H3 & H4 & H5); splits].
  - rewrite Hiff. split.
    + intros H n Hin. apply in_map_iff in Hin as (p & <- & Hp). simpl. apply Hn, H, in_map. assumption.
    + intros H w Hw. apply in_map_iff in Hw as (p & <- & Hp). apply Hn. apply H.
      apply in_map_iff. exists p. split; [reflexivity|assumption].
  - rewrite map_length, <- (map_length fst). exact H1.
  - rewrite map_length, <- (map_length fst). exact H1.
  - intros i j x y Hij Hx Hy. rewrite nth_error_map in Hx, Hy.
    dopt Hx p Ep. dopt Hy q Eqq.
    injection Hx as <-. injection Hy as <-. simpl. unfold vdiv.
    rewrite sprod_vscale_l, sprod_comm, sprod_vscale_l.
    assert (O : sprod (fst q) (fst p) = 0).
    { apply (H2 j i); [auto|exact (map_nth_error _ _ _ Eqq)|exact (map_nth_error _ _ _ Ep)]. }
    rewrite O. ring.
  - intros x Hx. apply in_map_iff in Hx as (p & <- & Hp). destruct p as [w k]. apply nz_unit.
    pose proof (H3 w) as Hw. rewrite in_map_iff in Hw. specialize (Hw (ex_intro _ (w, k) (conj eq_refl Hp))). lra.
  - intros n Hin. apply in_map_iff in Hin as (p & <- & Hp).
    pose proof (norm_nonneg (fst p)) as Hp0. assert (normEuclid (K := numR) (fst p) <> 0).
    { apply Hn. pose proof (H3 (fst p) (in_map fst _ _ Hp)). lra. }
    unfold nz, gsn_one, snd. lra.
  - intros i x e n Hx He Hnn. rewrite nth_error_map in He, Hnn.
    dopt He p Ep. destruct p as [w k]. cbn [option_map] in He, Hnn.
    injection He as <-. injection Hnn as <-.
    assert (Ew : nth_error (map fst L) i = Some w) by (exact (map_nth_error _ _ _ Ep)).
    pose proof (H4 i w Ew) as Hsp.
    assert (Hvs : Forall (fun v0 : rv => length v0 = d) (firstn (S i) (v :: r))) by (apply Forall_firstn; assumption).
    assert (Zadd : forall (a : R) (z : rv), length z = d -> vadd (repeat 0 d) (vscale (K := numR) z a) = vscale (K := numR) z a).
    { intros a z Lz. apply nth_ext_R; [rewrite vadd_length; rewrite repeat_length, ?vscale_length; cc|].
      intros j Hj. rewrite vadd_length in Hj by (rewrite repeat_length, vscale_length; cc). rewrite repeat_length in Hj.
      unfold vadd. rewrite zip_nth by (rewrite ?repeat_length, ?vscale_length; ll).
      rewrite nth_repeat. simpl. ring. }
    assert (Lw : length w = d) by (eapply span_length; eassumption).
    split.
    + unfold nz, gsn_one, vdiv. simpl fst. rewrite <- Zadd by assumption.
      apply span_axpy; [assumption|constructor|assumption].
    + destruct (H5 i w x Ew Hx) as (s & Hs & Hax). exists s. split.
      * eapply span_trans; [| |exact Hs].
        -- apply Forall_firstn. apply Forall_forall. intros z Hz. apply in_map_iff in Hz as (p & <- & Hp).
           simpl. unfold vdiv. rewrite vscale_length. apply In_nth_error in Hp as (j & Hj).
           eapply span_length, (H4 j). exact (map_nth_error _ _ _ Hj).
        -- intros z Hz. apply in_firstn in Hz as (j & Hj & Hz). rewrite nth_error_map in Hz.
           dopt Hz p Ej. destruct p as [w' k']. injection Hz as <-. simpl fst.
           assert (Ez : nth_error (map fst L) j = Some w') by (exact (map_nth_error _ _ _ Ej)).
           assert (Lz : length w' = d) by (eapply span_length, (H4 j); eassumption).
           assert (Hnz : normEuclid (K := numR) w' <> 0)
             by (apply Hn; pose proof (H3 w' (nth_error_In _ _ Ez)); lra).
           replace w' with (vadd (repeat 0 d) (vscale (K := numR) (fst (nz (w', k'))) (normEuclid (K := numR) w'))).
           2:{ unfold nz, gsn_one, vdiv. simpl fst. rewrite Zadd by (rewrite vscale_length; assumption).
               apply nth_ext_R; [rewrite !vscale_length; reflexivity|]. intros q _. rewrite !vscale_nth.
               cbn [ndiv none_ numR]. nr; unfold normEuclid in *; cbn [nsqrt numR] in *; field. assumption. }
           apply span_axpy.
           { apply Forall_firstn. apply Forall_forall. intros z Hz. apply in_map_iff in Hz as (p & <- & Hp).
             simpl. unfold vdiv. rewrite vscale_length. apply In_nth_error in Hp as (q & Hq).
             eapply span_length, (H4 q). exact (map_nth_error _ _ _ Hq). }
           { constructor. }
           { apply span_in; [|unfold nz, gsn_one, vdiv; simpl; rewrite vscale_length; assumption].
             assert (G : forall A (l : list A) k i y, (k < i)%nat -> nth_error l k = Some y -> In y (firstn i l)).
             { clear. intros A l. induction l as [|a l IH]; intros [|k] [|i] y; simpl; try discriminate; try lia.
               - intros _ H. left. congruence.
               - intros Hlt H. right. apply (IH k); [lia|assumption]. }
             apply (G _ _ j); [assumption|]. exact (map_nth_error _ _ _ Ej). }
      * destruct Hax as (L1 & L2 & Hax). unfold is_axpy, nz, gsn_one, vdiv. simpl fst. simpl snd.
        rewrite vscale_length. splits; [assumption|assumption|]. intros q Hq.
        rewrite (Hax q Hq), vscale_nth. cbn [ndiv none_ numR].
        assert (normEuclid (K := numR) w <> 0)
             by (apply Hn; pose proof (H3 w (nth_error_In _ _ Ew)); lra).
        unfold normEuclid in H. simpl in H. field. exact H.
Qed.
Print Assumptions C41_gram_schmidt_normalised.

(** C41. The norms give areas and volumes: for two vectors of any dimension the product of the norms is the
    area of their parallelogram (square root of the Gram determinant) and for three vectors of the space
    it is the volume |det| of their parallelepiped. *)
Theorem C41_norms_are_volumes :
  (forall u v : list R, length u = length v -> sprod u u <> 0 ->
     exists es n0 n1, gramSchmidtN (K := numR) [u; v] = Ok (es, [n0; n1]) /\
       n0 * n1 = sqrt (sprod u u * sprod v v - sprod u v * sprod u v)) /\
  (forall u1 u2 u3 v1 v2 v3 w1 w2 w3,
     (u2 * v3 - u3 * v2 <> 0 \/ u3 * v1 - u1 * v3 <> 0 \/ u1 * v2 - u2 * v1 <> 0) ->
     exists es n0 n1 n2, gramSchmidtN (K := numR) [[u1; u2; u3]; [v1; v2; v3]; [w1; w2; w3]] = Ok (es, [n0; n1; n2]) /\
       n0 * n1 * n2 = Rabs (det3 u1 u2 u3 v1 v2 v3 w1 w2 w3)).
Proof.
  split.
  - intros u v L Hu. destruct (gs2_norms u v L Hu) as (e0 & e1 & n0 & n1 & E & _ & P0 & P1 & H & _).
    exists [e0; e1], n0, n1. split; [exact E|]. rewrite <- H. symmetry. apply sqrt_square.
    apply Rmult_le_pos; lra.
  - intros u1 u2 u3 v1 v2 v3 w1 w2 w3 H.
    destruct (gs3_norms [u1; u2; u3] [v1; v2; v3] [w1; w2; w3]) as (e0 & e1 & e2 & n0 & n1 & n2 & E & _ & _ & _ & _ & HD & _ & _);
      try reflexivity.
    + intros Z. simpl in Z.
      assert (Z2 : (u2 * v3 - u3 * v2) * (u2 * v3 - u3 * v2) + (u3 * v1 - u1 * v3) * (u3 * v1 - u1 * v3)
                   + (u1 * v2 - u2 * v1) * (u1 * v2 - u2 * v1) = 0) by (rewrite <- Z; ring).
      assert (Sq : forall a : R, a <> 0 -> 0 < a * a) by (intros a Ha; apply Rsqr_pos_lt; assumption).
      assert (Sq0 : forall a : R, 0 <= a * a) by (intros a; apply Rle_0_sqr).
      pose proof (Sq0 (u2 * v3 - u3 * v2)). pose proof (Sq0 (u3 * v1 - u1 * v3)). pose proof (Sq0 (u1 * v2 - u2 * v1)).
      destruct H as [H|[H|H]]; apply Sq in H; lra.
    + exists [e0; e1; e2], n0, n1, n2. split; [exact E|]. exact HD.
Qed.
Print Assumptions C41_norms_are_volumes.

(** C41. No vectors: the std::vector overloads throw. *)
Theorem C41_empty : gramSchmidt (K := numR) [] = Throw /\ gramSchmidtN (K := numR) [] = Throw.
Proof. split; reflexivity. Qed.
Print Assumptions C41_empty.

Example C41_instance :
  exists es, gramSchmidtN (K := numR) [[3; 4]; [5; 5]] = Ok (es, [5; 1]) /\
  lin_indep 2 [[3; 4]; [5; 5]].
Proof.
  assert (E : exists es, gramSchmidtN (K := numR) [[3; 4]; [5; 5]] = Ok (es, [5; 1])).
  { destruct (gs2_norms [3; 4] [5; 5]) as (e0 & e1 & n0 & n1 & E & E0 & P0 & P1 & H & _); [reflexivity|simpl; lra|].
    assert (n0 = 5) by (rewrite E0; unfold normEuclid, sumOfSquares; rewrite dot_sprod; simpl;
                        replace (3 * 3 + (4 * 4 + 0)) with (5 * 5) by ring; apply sqrt_square; lra).
    assert (n1 = 1).
    { rewrite H0 in H. simpl in H. assert (n1 * n1 = 1 * 1) by lra. rewrite <- (Rabs_pos_eq 1) by lra.
      apply nonneg_sq_eq; assumption. }
    exists [e0; e1]. rewrite E, H0, H1. reflexivity. }
  destruct E as (es & E). exists es. split; [exact E|].
  destruct (C41_gram_schmidt_normalised 2 [[3; 4]; [5; 5]]) as (es' & ns & E' & Hiff & _); [congruence|repeat constructor|].
  rewrite E in E'. injection E' as <- <-. apply Hiff. simpl. intros n [<-|[<-|[]]]; lra.
Qed.

(** C42. Vectors of a fixed dimension form a real vector space with a scalar product and norm; on
    coordinates the operations are the expected ones; == is equality. *)
Theorem C42_vector_space : forall d (u v w : list R) (a b : R),
  length u = d -> length v = d -> length w = d ->
  (forall i, (i < d)%nat ->
     nth i (vadd u v) 0 = nth i u 0 + nth i v 0 /\ nth i (vsub u v) 0 = nth i u 0 - nth i v 0 /\
     nth i (vscale (K := numR) u a) 0 = nth i u 0 * a /\ nth i (vdiv (K := numR) u a) 0 = nth i u 0 / a) /\
  length (vadd u v) = d /\ length (vsub u v) = d /\ length (vscale (K := numR) u a) = d /\
  vadd u v = vadd v u /\ vadd (vadd u v) w = vadd u (vadd v w) /\
  vadd u (repeat 0 d) = u /\ vsub u u = repeat 0 d /\ vadd (vsub u v) v = u /\
  vscale (K := numR) (vadd u v) a = vadd (vscale (K := numR) u a) (vscale (K := numR) v a) /\
  vscale (K := numR) u (a + b) = vadd (vscale (K := numR) u a) (vscale (K := numR) u b) /\
  vscale (K := numR) (vscale (K := numR) u a) b = vscale (K := numR) u (a * b) /\ vscale (K := numR) u 1 = u /\
  scalev (K := numR) a u = vscale (K := numR) u a /\
  (a <> 0 -> vscale (K := numR) (vdiv (K := numR) u a) a = u) /\
  (veqb (K := numR) u v = true <-> u = v).
Proof.
  intros d u v w a b Hu Hv Hw.
  assert (Ext : forall x y : rv, length x = d -> length y = d -> (forall i, (i < d)%nat -> nth i x 0 = nth i y 0) -> x = y)
    by (intros x y Lx Ly H; apply nth_ext_R; [congruence|]; rewrite Lx; exact H).
  assert (Ladd : forall x y : rv, length x = d -> length y = d -> length (vadd x y) = d) by (intros; rewrite vadd_length; congruence).
  assert (Lsub : forall x y : rv, length x = d -> length y = d -> length (vsub x y) = d) by (intros; rewrite vsub_length; congruence).
  assert (Lsc : forall (x : rv) (c : R), length x = d -> length (vscale (K := numR) x c) = d) by (intros; rewrite vscale_length; congruence).
  assert (Lr : length (repeat 0 d) = d) by apply repeat_length.
  assert (Nadd : forall (x y : rv) i, length x = d -> length y = d -> (i < d)%nat -> nth i (vadd x y) 0 = nth i x 0 + nth i y 0)
    by (intros; unfold vadd; rewrite zip_nth by congruence; reflexivity).
  assert (Nsub : forall (x y : rv) i, length x = d -> length y = d -> (i < d)%nat -> nth i (vsub x y) 0 = nth i x 0 - nth i y 0)
    by (intros; unfold vsub; rewrite zip_nth by congruence; reflexivity).
  assert (Nsc : forall (x : rv) (c : R) i, nth i (vscale (K := numR) x c) 0 = nth i x 0 * c) by (intros; apply vscale_nth).
  assert (Nr : forall i, nth i (repeat 0 d) 0 = 0) by (intros; apply nth_repeat).
  assert (Ndiv : forall i, nth i (vdiv (K := numR) u a) 0 = nth i u 0 / a).
  { intros i. unfold vdiv. rewrite Nsc. cbn [ndiv none_ numR]. unfold Rdiv. nr; ring. }
  splits; auto;
    try (apply Ext; auto; intros i Hi; rewrite ?Nadd, ?Nsub, ?Nsc, ?Nadd, ?Nsub, ?Nsc, ?Nr by auto; ring).
  - intros Ha. apply Ext; [apply Lsc; unfold vdiv; auto|auto|]. intros i Hi. rewrite Nsc, Ndiv. field. assumption.
  - subst d. clear - Hv. revert v Hv. induction u as [|x u IH]; intros [|y v]; simpl; intros L; try discriminate.
    + split; auto.
    + unfold Reqb. destruct (Req_EM_T x y) as [->|Hn].
      * rewrite IH by lia. split; [intros ->; reflexivity|congruence].
      * split; [discriminate|congruence].
Qed.
Print Assumptions C42_vector_space.

(** C42. The scalar product is bilinear, symmetric and positive; the norm is its square root and satisfies
    the Cauchy-Schwarz and triangle inequalities. *)
Theorem C42_scalar_product : forall d (u v w : list R) (a : R),
  length u = d -> length v = d -> length w = d ->
  dot (K := numR) u v = sprod u v /\
  dot (K := numR) u v = dot (K := numR) v u /\
  dot (K := numR) (vadd u v) w = dot (K := numR) u w + dot (K := numR) v w /\
  dot (K := numR) (vsub u v) w = dot (K := numR) u w - dot (K := numR) v w /\
  dot (K := numR) (vscale (K := numR) u a) w = a * dot (K := numR) u w /\
  sumOfSquares (K := numR) u = dot (K := numR) u u /\
  0 <= dot (K := numR) u u /\ (dot (K := numR) u u = 0 <-> u = repeat 0 d) /\
  normEuclid (K := numR) u = sqrt (sprod u u) /\ 0 <= normEuclid (K := numR) u /\
  normEuclid (K := numR) (vscale (K := numR) u a) = Rabs a * normEuclid (K := numR) u /\
  Rabs (dot (K := numR) u v) <= normEuclid (K := numR) u * normEuclid (K := numR) v /\
  normEuclid (K := numR) (vadd u v) <= normEuclid (K := numR) u + normEuclid (K := numR) v.
Proof.
  intros d u v w a Hu Hv Hw. unfold sumOfSquares. rewrite !dot_sprod.
  assert (Nn : forall x : rv, 0 <= normEuclid (K := numR) x) by (intros; apply norm_nonneg).
  assert (CS : Rabs (sprod u v) <= normEuclid (K := numR) u * normEuclid (K := numR) v).
  { apply Rsqr_incr_0.
    - rewrite <- Rsqr_abs. unfold Rsqr. replace (normEuclid (K := numR) u * normEuclid (K := numR) v * (normEuclid (K := numR) u * normEuclid (K := numR) v))
        with ((normEuclid (K := numR) u * normEuclid (K := numR) u) * (normEuclid (K := numR) v * normEuclid (K := numR) v))
        by (unfold normEuclid; cbn [nsqrt numR]; ring).
      rewrite !norm_sq. apply sprod_cs. congruence.
    - apply Rabs_pos.
    - apply Rmult_le_pos; apply Nn. }
  splits; try assumption; try reflexivity.
  - apply sprod_comm.
  - apply sprod_vadd_l. congruence.
  - apply sprod_vsub_l. congruence.
  - apply sprod_vscale_l.
  - apply sprod_nonneg.
  - split; [intros H; apply sprod_zero_inv in H; congruence|]. intros ->. apply sprod_zero_l.
  - unfold normEuclid, sumOfSquares. rewrite dot_sprod. reflexivity.
  - apply Nn.
  - apply Rsqr_inj; [apply Nn|apply Rmult_le_pos; [apply Rabs_pos|apply Nn]|].
    rewrite Rsqr_mult, <- Rsqr_abs. unfold Rsqr. rewrite !norm_sq, sprod_vscale_l, sprod_comm, sprod_vscale_l. ring.
  - apply Rsqr_incr_0; [|apply Nn|pose proof (Nn u); pose proof (Nn v); apply Rplus_le_le_0_compat; assumption].
    unfold Rsqr. rewrite norm_sq, sprod_vadd_l by congruence.
    rewrite (sprod_comm u), (sprod_comm v), !sprod_vadd_l by congruence.
    rewrite (sprod_comm v u).
    replace ((normEuclid (K := numR) u + normEuclid (K := numR) v) * (normEuclid (K := numR) u + normEuclid (K := numR) v))
      with ((normEuclid (K := numR) u * normEuclid (K := numR) u) + (normEuclid (K := numR) v * normEuclid (K := numR) v) + 2 * (normEuclid (K := numR) u * normEuclid (K := numR) v))
      by (unfold normEuclid; cbn [nsqrt numR]; ring).
    rewrite !norm_sq. pose proof (Rle_abs (sprod u v)). lra.
Qed.
Print Assumptions C42_scalar_product.

(** C42. vectorProduct in the space. *)
Theorem C42_vector_product : forall u1 u2 u3 v1 v2 v3 : R,
  exists p1 p2 p3,
  vectorProduct (K := numR) [u1; u2; u3] [v1; v2; v3] = Ok [p1; p2; p3] /\
  vectorProduct (K := numR) [v1; v2; v3] [u1; u2; u3] = Ok [- p1; - p2; - p3] /\
  (forall w1 w2 w3, sprod [p1; p2; p3] [w1; w2; w3] = det3 u1 u2 u3 v1 v2 v3 w1 w2 w3) /\
  sprod [p1; p2; p3] [u1; u2; u3] = 0 /\ sprod [p1; p2; p3] [v1; v2; v3] = 0 /\
  sprod [p1; p2; p3] [p1; p2; p3] =
    sprod [u1; u2; u3] [u1; u2; u3] * sprod [v1; v2; v3] [v1; v2; v3]
    - sprod [u1; u2; u3] [v1; v2; v3] * sprod [u1; u2; u3] [v1; v2; v3].
Proof.
  intros. eexists _, _, _. split; [reflexivity|]. unfold det3. cbn. splits; try (intros; ring).
  f_equal. f_equal; [ring|]. f_equal; [ring|]. f_equal. ring.
Qed.
Print Assumptions C42_vector_product.

(** C42. Initializer lists: too short ones are padded with zeros, too long ones cut. *)
Theorem C42_initializer_list : forall dim (l : list R),
  ofList (K := numR) dim l = firstn dim l ++ repeat 0 (dim - length l) /\ length (ofList (K := numR) dim l) = dim.
Proof.
  induction dim as [|dim IH]; intros l; [split; reflexivity|].
  destruct l as [|x l]; cbn [ofList].
  - destruct (IH []) as [E L]. split; [|cbn [length]; f_equal; exact L].
    cbn [firstn app length Nat.sub repeat]. f_equal. etransitivity; [exact E|].
    rewrite firstn_nil, Nat.sub_0_r. reflexivity.
  - destruct (IH l) as [E L]. split; [|cbn [length]; f_equal; exact L].
    cbn [length firstn app Nat.sub]. f_equal. exact E.
Qed.
Print Assumptions C42_initializer_list.

Example C42_instance : ofList (K := numZ) 3 [1; 2]%Z = [1; 2; 0]%Z /\ ofList (K := numZ) 2 [1; 2; 3]%Z = [1; 2]%Z /\
  vectorProduct (K := numZ) [1; 0; 0]%Z [0; 1; 0]%Z = Ok [0; 0; 1]%Z.
Proof. splits; reflexivity. Qed.

(** C43. Dividing a floating point vector by a value of its own type scales it by the reciprocal
    ([C42_vector_space]); so does /= with an int. But operator/ with an int computes the reciprocal in int:
    only 1 and -1 give the quotient, 0 is undefined, any other divisor gives the zero vector; and a vector
    of ints divided by an int (either way) is the zero vector, too. *)
Theorem C43_division_by_int : forall (v : list R) (z : Z),
  vdiv_int (K := numR) IZR v 0 = UB /\
  vdiv_int (K := numR) IZR v 1 = Ok v /\
  vdiv_int (K := numR) IZR v (-1) = Ok (map Ropp v) /\
  (forall i, z <> 0%Z -> nth i (vdivassign_int (K := numR) IZR v z) 0 = nth i v 0 / IZR z) /\
  ((1 < Z.abs z)%Z ->
     vdiv_int (K := numR) IZR v z = Ok (repeat 0 (length v)) /\
     (vdiv_int (K := numR) IZR v z = Ok (vdivassign_int (K := numR) IZR v z) <-> v = repeat 0 (length v)) /\
     (forall w : list Z, vdiv (K := numZ) w z = repeat 0%Z (length w))).
Proof.
  intros v z.
  assert (Hid : forall c : R, (forall x : R, x * c = x) -> vscale (K := numR) v c = v)
    by (intros c Hc; unfold vscale; erewrite map_ext; [apply map_id|]; intros x; apply Hc).
  splits.
  - reflexivity.
  - unfold vdiv_int. cbn [Z.eqb]. f_equal. apply Hid. intros x. change (Z.quot 1 1) with 1%Z. ring.
  - unfold vdiv_int. cbn [Z.eqb]. f_equal. change (Z.quot 1 (-1)) with (-1)%Z. unfold vscale. apply map_ext.
    intros x. cbn [nmul numR]. ring.
  - intros i Hz. unfold vdivassign_int. rewrite vscale_nth. cbn [ndiv none_ numR]. unfold Rdiv. nr; ring.
  - intros Hz. assert (Q : Z.quot 1 z = 0%Z) by (apply Z.quot_small_iff; lia).
    assert (E : vdiv_int (K := numR) IZR v z = Ok (repeat 0 (length v))).
    { unfold vdiv_int. destruct (Z.eqb_spec z 0) as [->|]; [lia|]. f_equal. rewrite Q. unfold vscale.
      clear. induction v as [|x v IH]; [reflexivity|]. cbn [map length repeat]. rewrite IH. f_equal. cbn. ring. }
    splits; [assumption| |].
    + rewrite E. split.
      * intros H. injection H as H. apply nth_ext_R; [rewrite repeat_length; reflexivity|]. intros i Hi.
        pose proof (f_equal (fun l => nth i l 0) H) as Hn. cbv beta in Hn. rewrite nth_repeat in *.
        unfold vdivassign_int in Hn. rewrite vscale_nth in Hn. cbn [ndiv none_ numR] in Hn.
        assert (IZR z <> 0) by (apply not_0_IZR; lia). symmetry in Hn.
        apply Rmult_integral in Hn as [Hn|Hn]; [assumption|].
        assert (1 / IZR z * IZR z = 1) by (field; assumption). rewrite Hn in H1. lra.
      * intros Hv0. refine (f_equal (@Ok (list R)) _). unfold vdivassign_int. rewrite Hv0 at 2.
        apply nth_ext_R; [rewrite vscale_length; reflexivity|]. intros i Hi. rewrite vscale_nth, !nth_repeat. nr. ring.
    + intros w. unfold vdiv, vscale. cbn [ndiv none_ nmul numZ]. rewrite Q.
      clear. induction w as [|x w IH]; [reflexivity|]. cbn [map length repeat]. rewrite IH. f_equal. ring.
Qed.
Print Assumptions C43_division_by_int.

Example C43_instance : vdiv_int (K := numZ) (fun z => z) [6; 4]%Z 2 = Ok [0; 0]%Z.
Proof. reflexivity. Qed.

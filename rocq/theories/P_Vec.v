(** Proofs about vectors and the Gram-Schmidt process over the reals. *)
From Coq Require Import Reals Lra Psatz.
From Verif Require Import P_Base M_Vec S_Vec.
Local Open Scope R_scope.
Notation rv := (list R).
(** Syntactic normalisation of the type of coordinates for ll and cc. *)
Ltac nr := unfold vec in *; change (num numR) with R in *.
Ltac ll := nr; lia.
Ltac cc := nr; congruence.
Implicit Types u v w x y : rv.

Lemma zip_length (f : R -> R -> R) u v : length u = length v -> length (zip (K := numR) f u v) = length u.
Proof. revert v. induction u as [|a u IH]; intros [|b v]; simpl; intros H; try discriminate; auto. Qed.
Lemma zip_nth (f : R -> R -> R) u v i :
  (i < length u)%nat -> (i < length v)%nat -> nth i (zip (K := numR) f u v) 0 = f (nth i u 0) (nth i v 0).
Proof.
  revert v i. induction u as [|a u IH]; intros [|b v] i; simpl; intros; try ll.
  destruct i as [|i]; [reflexivity|]. apply IH; ll.
Qed.
Lemma vadd_length u v : length u = length v -> length (vadd u v) = length u.
Proof. apply zip_length. Qed.
Lemma vsub_length u v : length u = length v -> length (vsub u v) = length u.
Proof. apply zip_length. Qed.
Lemma vscale_length v a : length (vscale v a) = length v.
Proof. apply map_length. Qed.
Lemma vscale_nth v (a : R) i : nth i (vscale (K := numR) v a) 0 = nth i v 0 * a.
Proof.
  unfold vscale. revert i. induction v as [|b v IH]; intros [|i]; simpl; try ring. apply IH.
Qed.
Lemma nth_ext_R u v : length u = length v -> (forall i, (i < length u)%nat -> nth i u 0 = nth i v 0) -> u = v.
Proof. intros H1 H2. apply (nth_ext _ _ 0 0); assumption. Qed.

(** The scalar product of the code is the mathematical one. *)
Lemma fold_plus (l : list R) (a : R) : fold_left Rplus l a = a + fold_left Rplus l 0.
Proof.
  revert a. induction l as [|b l IH]; intros a; simpl; [ring|].
  rewrite IH, (IH (0 + b)). ring.
Qed.
Lemma dot_sprod u v : dot u v = sprod u v.
Proof.
  unfold dot. revert v. induction u as [|a u IH]; intros v; [reflexivity|].
  destruct v as [|b v]; [reflexivity|]. cbn [zip sprod]. rewrite <- IH.
  cbn [nmul nadd nzero numR]. destruct (zip Rmult u v) as [|p r].
  - cbn. nr. ring.
  - cbn [fold_left]. nr. rewrite fold_plus. symmetry. rewrite fold_plus. ring.
Qed.

Lemma sprod_comm u v : sprod u v = sprod v u.
Proof. revert v. induction u as [|a u IH]; intros [|b v]; simpl; auto. rewrite IH. ring. Qed.
Lemma sprod_vadd_l u v w : length u = length v -> sprod (vadd u v) w = sprod u w + sprod v w.
Proof.
  revert v w. induction u as [|a u IH]; intros [|b v] [|c w]; simpl; intros H; try discriminate; try ring.
  change (zip Rplus u v) with (vadd (K := numR) u v). rewrite IH by ll. ring.
Qed.
Lemma sprod_vsub_l u v w : length u = length v -> sprod (vsub u v) w = sprod u w - sprod v w.
Proof.
  revert v w. induction u as [|a u IH]; intros [|b v] [|c w]; simpl; intros H; try discriminate; try ring.
  change (zip Rminus u v) with (vsub (K := numR) u v). rewrite IH by ll. ring.
Qed.
Lemma sprod_vscale_l v (a : R) w : sprod (vscale (K := numR) v a) w = a * sprod v w.
Proof.
  revert w. induction v as [|b v IH]; intros [|c w]; simpl; try ring.
  change (map (fun z : R => z * a) v) with (vscale (K := numR) v a). rewrite IH. ring.
Qed.
Lemma sprod_zero_l d w : sprod (repeat 0 d) w = 0.
Proof. revert w. induction d as [|d IH]; intros [|c w]; simpl; auto. rewrite IH. ring. Qed.
Lemma sprod_nonneg v : 0 <= sprod v v.
Proof. induction v as [|a v IH]; simpl; [lra|]. pose proof (Rle_0_sqr a) as H. unfold Rsqr in H. lra. Qed.
Lemma sprod_zero_inv v : sprod v v = 0 -> v = repeat 0 (length v).
Proof.
  induction v as [|a v IH]; simpl; intros H; [reflexivity|].
  pose proof (sprod_nonneg v). pose proof (Rle_0_sqr a) as Ha. unfold Rsqr in Ha.
  assert (a * a = 0) by lra. assert (a = 0) by (destruct (Rmult_integral _ _ H1); assumption).
  subst. rewrite <- IH by lra. reflexivity.
Qed.
(** Cauchy-Schwarz *)
Lemma sprod_cs u v : length u = length v -> sprod u v * sprod u v <= sprod u u * sprod v v.
Proof.
  intros L.
  assert (Hq : forall t, 0 <= sprod u u - 2 * t * sprod u v + t * t * sprod v v).
  { intros t. pose proof (sprod_nonneg (vsub u (vscale v t))) as H.
    rewrite sprod_vsub_l in H by (rewrite vscale_length; assumption).
    rewrite sprod_vscale_l in H.
    rewrite (sprod_comm u (vsub _ _)), (sprod_comm v (vsub _ _)) in H.
    rewrite !sprod_vsub_l in H by (rewrite vscale_length; assumption).
    rewrite !sprod_vscale_l in H. rewrite (sprod_comm v u) in H. lra. }
  destruct (Req_EM_T (sprod v v) 0) as [E|E].
  - pose proof (sprod_zero_inv v E) as Hz. rewrite E.
    rewrite (sprod_comm u v), Hz, sprod_zero_l. lra.
  - pose proof (sprod_nonneg v). assert (Hp : 0 < sprod v v) by lra.
    specialize (Hq (sprod u v / sprod v v)).
    replace (sprod u u - 2 * (sprod u v / sprod v v) * sprod u v
             + sprod u v / sprod v v * (sprod u v / sprod v v) * sprod v v)
      with (sprod u u - sprod u v * sprod u v / sprod v v) in Hq by (field; lra).
    assert (sprod u v * sprod u v / sprod v v <= sprod u u) by lra.
    apply Rmult_le_compat_r with (r := sprod v v) in H0; [|lra].
    unfold Rdiv in H0. rewrite Rmult_assoc, Rinv_l, Rmult_1_r in H0 by lra. assumption.
Qed.

Lemma norm_sq v : normEuclid v * normEuclid v = sprod v v.
Proof. unfold normEuclid, sumOfSquares. rewrite dot_sprod. apply sqrt_sqrt, sprod_nonneg. Qed.
Lemma norm_nonneg v : 0 <= normEuclid v.
Proof. apply sqrt_pos. Qed.
Lemma norm_zero v : normEuclid v = 0 <-> v = repeat 0 (length v).
Proof.
  split; intros H.
  - apply sprod_zero_inv. rewrite <- norm_sq, H. apply Rmult_0_r.
  - assert (normEuclid v * normEuclid v = 0) by (rewrite norm_sq, H; apply sprod_zero_l).
    destruct (Rmult_integral _ _ H0); assumption.
Qed.

(** * Gram-Schmidt *)
(** [done]: pairwise orthogonal vectors w with factors k, k (w.w) = 1 *)
Definition ortho (done : list (rv * R)) : Prop :=
  forall i j p q, nth_error done i = Some p -> nth_error done j = Some q ->
    (i <> j -> sprod (fst p) (fst q) = 0) /\ (i = j -> snd p * sprod (fst p) (fst p) = 1).

Lemma ortho_tl p done : ortho (p :: done) -> ortho done.
Proof.
  intros H i j q r Hi Hj. destruct (H (S i) (S j) q r Hi Hj) as [H1 H2].
  split; intros; [apply H1|apply H2]; ll.
Qed.

Lemma gs_subtract_length d basis coef v :
  Forall (fun w => length w = d) basis -> length v = d -> length (gs_subtract basis coef v) = d.
Proof.
  unfold gs_subtract. revert coef v. induction basis as [|w basis IH]; intros coef v HF Hv; [assumption|].
  apply Forall_cons_iff in HF as [Hw HF]. destruct coef as [|c coef]; [assumption|]. simpl. apply IH; [assumption|].
  rewrite vsub_length; rewrite ?vscale_length; cc.
Qed.

Fixpoint csum (basis : list rv) (coef : list R) (u : rv) : R :=
  match basis, coef with
  | w :: b, c :: r => c * sprod w u + csum b r u
  | _, _ => 0
  end.
Lemma gs_subtract_sprod d basis coef v u :
  Forall (fun w => length w = d) basis -> length v = d ->
  sprod (gs_subtract basis coef v) u = sprod v u - csum basis coef u.
Proof.
  unfold gs_subtract. revert coef v. induction basis as [|w basis IH]; intros coef v HF Hv; [simpl; ring|].
  apply Forall_cons_iff in HF as [Hw HF]. destruct coef as [|c coef]; [simpl; ring|]. cbn [combine fold_left fst snd csum].
  rewrite IH; [|assumption|rewrite vsub_length; rewrite ?vscale_length; cc].
  rewrite sprod_vsub_l by (rewrite vscale_length; cc). rewrite sprod_vscale_l. ring.
Qed.

Lemma csum_zero done (f : rv * R -> R) u :
  (forall p, In p done -> sprod (fst p) u = 0) -> csum (map fst done) (map f done) u = 0.
Proof.
  induction done as [|p done IH]; intros H; [reflexivity|]. simpl.
  rewrite H by (left; reflexivity). rewrite IH by (intros; apply H; right; assumption). ring.
Qed.

Lemma csum_ortho done v q :
  ortho done -> In q done ->
  csum (map fst done) (map (fun p => sprod v (fst p) * snd p) done) (fst q) = sprod v (fst q).
Proof.
  induction done as [|p done IH]; intros H Hq; [destruct Hq|].
  cbn [map csum]. destruct Hq as [->|Hq].
  - rewrite csum_zero.
    + destruct (H 0%nat 0%nat q q eq_refl eq_refl) as [_ Hn]. specialize (Hn eq_refl).
      rewrite Rmult_assoc, Hn. ring.
    + intros r Hr. apply In_nth_error in Hr as (i & Hi).
      destruct (H (S i) 0%nat r q Hi eq_refl) as [Ho _]. apply Ho. ll.
  - rewrite IH; [|eapply ortho_tl; eassumption|assumption].
    apply In_nth_error in Hq as (i & Hi).
    destruct (H 0%nat (S i) p q eq_refl Hi) as [Ho _]. rewrite Ho by ll. ring.
Qed.

(** The subtraction makes the vector orthogonal to all the processed ones. *)
Lemma gs_step_ortho d done v q :
  Forall (fun p => length (fst p) = d) done -> length v = d -> ortho done -> In q done ->
  sprod (gs_subtract (map fst done) (map (fun p => sprod v (fst p) * snd p) done) v) (fst q) = 0.
Proof.
  intros HF Hv Ho Hq.
  rewrite (gs_subtract_sprod d); [|apply Forall_map; assumption|assumption].
  rewrite csum_ortho by assumption. ring.
Qed.

Lemma ortho_snoc done w (k : R) :
  ortho done -> (forall q, In q done -> sprod w (fst q) = 0) -> k * sprod w w = 1 ->
  ortho (done ++ [(w, k)]).
Proof.
  intros Ho Hq Hk i j p q Hi Hj.
  assert (Hcase : forall i p, nth_error (done ++ [(w, k)]) i = Some p ->
            (nth_error done i = Some p /\ (i < length done)%nat) \/ (i = length done /\ p = (w, k))).
  { intros a r Ha. destruct (Nat.lt_ge_cases a (length done)) as [Hl|Hl].
    - left. rewrite nth_error_app1 in Ha by assumption. auto.
    - right. rewrite nth_error_app2 in Ha by assumption.
      destruct (a - length done)%nat as [|z] eqn:E; simpl in Ha; [split; [ll|cc]|].
      destruct z; discriminate. }
  destruct (Hcase i p Hi) as [[Hi' Li]|[Ei ->]]; destruct (Hcase j q Hj) as [[Hj' Lj]|[Ej ->]].
  - eapply Ho; eassumption.
  - split; [|ll]. intros _. simpl. rewrite sprod_comm. apply Hq. eapply nth_error_In; eassumption.
  - split; [|ll]. intros _. simpl. apply Hq. eapply nth_error_In; eassumption.
  - split; [ll|]. intros _. exact Hk.
Qed.

(** * Spans *)
Lemma is_axpy_unique x y a w : is_axpy x y a w -> x = vadd y (vscale w a).
Proof.
  intros (L1 & L2 & H). apply nth_ext_R.
  - rewrite vadd_length; rewrite ?vscale_length; cc.
  - intros i Hi. rewrite H by assumption. unfold vadd.
    rewrite zip_nth by (rewrite ?vscale_length; ll). rewrite vscale_nth. simpl. ring.
Qed.
Lemma is_axpy_vadd y a w : length y = length w -> is_axpy (vadd y (vscale w a)) y a w.
Proof.
  intros L. unfold is_axpy. rewrite vadd_length by (rewrite vscale_length; assumption).
  splits; auto. intros i Hi. unfold vadd. rewrite zip_nth by (rewrite ?vscale_length; ll).
  rewrite vscale_nth. simpl. ring.
Qed.
Lemma is_axpy_vsub y c w : length y = length w -> is_axpy (vsub y (vscale w c)) y (- c) w.
Proof.
  intros L. unfold is_axpy. rewrite vsub_length by (rewrite vscale_length; assumption).
  splits; auto. intros i Hi. unfold vsub. rewrite zip_nth by (rewrite ?vscale_length; ll).
  rewrite vscale_nth. simpl. ring.
Qed.

Lemma span_length d vs x : in_span d vs x -> length x = d.
Proof. intros H. induction H; [apply repeat_length|]. destruct H1 as (? & ? & ?). cc. Qed.
Lemma span_mono d vs vs' x : incl vs vs' -> in_span d vs x -> in_span d vs' x.
Proof. intros Hi H. induction H; [constructor|]. eapply span_step; eauto. Qed.
Lemma span_in d vs v : In v vs -> length v = d -> in_span d vs v.
Proof.
  intros Hi L. eapply (span_step d vs v (repeat 0 d) 1 v); [constructor|assumption|].
  unfold is_axpy. rewrite repeat_length. splits; auto. intros i Hi'. rewrite nth_repeat. ring.
Qed.
Lemma span_axpy d vs y z (a : R) : Forall (fun v => length v = d) vs ->
  in_span d vs y -> in_span d vs z -> in_span d vs (vadd y (vscale (K := numR) z a)).
Proof.
  intros HF Hy Hz. induction Hz as [|x z b w Hz IH Hw Hx].
  - replace (vadd y _) with y; [assumption|]. pose proof (span_length _ _ _ Hy) as Ly.
    apply nth_ext_R; [rewrite vadd_length; rewrite ?vscale_length, ?repeat_length; cc|].
    intros i Hi. unfold vadd. rewrite zip_nth by (rewrite ?vscale_length, ?repeat_length; ll).
    rewrite vscale_nth, nth_repeat. simpl. ring.
  - pose proof (span_length _ _ _ Hy) as Ly. pose proof (span_length _ _ _ Hz) as Lz.
    pose proof Hx as (L1 & L2 & Hx').
    apply (span_step d vs _ (vadd y (vscale z a)) (a * b) w IH Hw).
    unfold is_axpy. rewrite !vadd_length by (rewrite ?vscale_length; cc).
    splits; [cc|cc|]. intros i Hi. unfold vadd.
    rewrite !zip_nth by (rewrite ?vscale_length; ll). rewrite !vscale_nth, Hx' by ll. simpl. ring.
Qed.
Lemma span_trans d vs ws x : Forall (fun v => length v = d) vs ->
  (forall w, In w ws -> in_span d vs w) -> in_span d ws x -> in_span d vs x.
Proof.
  intros HF H Hx. induction Hx as [|x y a w Hy IH Hw Hx]; [constructor|].
  rewrite (is_axpy_unique _ _ _ _ Hx). apply span_axpy; auto.
Qed.
Lemma gs_subtract_span d basis coef v vs : Forall (fun w => length w = d) vs ->
  (forall w, In w basis -> in_span d vs w) -> in_span d vs v ->
  in_span d vs (gs_subtract basis coef v).
Proof.
  intros HF. unfold gs_subtract. revert coef v. induction basis as [|w basis IH]; intros coef v Hb Hv; [assumption|].
  destruct coef as [|c coef]; [assumption|]. simpl. apply IH; [intros; apply Hb; right; assumption|].
  replace (vsub v (vscale w c)) with (vadd v (vscale w (- c))).
  - apply span_axpy; auto. apply Hb. left. reflexivity.
  - symmetry. apply is_axpy_unique, is_axpy_vsub.
    rewrite (span_length _ _ _ Hv). symmetry. apply (span_length d vs). apply Hb. left. reflexivity.
Qed.
(** v is its orthogonalised version plus a combination of the basis. *)
Lemma gs_subtract_back d basis coef v :
  Forall (fun w => length w = d) basis -> length v = d ->
  exists s, in_span d basis s /\ v = vadd s (gs_subtract basis coef v).
Proof.
  intros HF Hv.
  assert (G : forall basis' coef v, incl basis' basis -> length v = d ->
            exists s, in_span d basis s /\ v = vadd s (gs_subtract basis' coef v)).
  { unfold gs_subtract. induction basis' as [|w b IH]; intros cf x Hi Hx.
    - exists (repeat 0 d). split; [constructor|]. simpl.
      apply nth_ext_R; [rewrite vadd_length; rewrite repeat_length; cc|].
      intros i Hi'. unfold vadd. rewrite zip_nth by (rewrite ?repeat_length; ll). rewrite nth_repeat. simpl. ring.
    - destruct cf as [|c cf].
      + exists (repeat 0 d). split; [constructor|]. simpl.
        apply nth_ext_R; [rewrite vadd_length; rewrite repeat_length; cc|].
        intros i Hi'. unfold vadd. rewrite zip_nth by (rewrite ?repeat_length; ll). rewrite nth_repeat. simpl. ring.
      + assert (Hw : In w basis) by (apply Hi; left; reflexivity).
        assert (Lw : length w = d) by (rewrite Forall_forall in HF; apply HF; assumption).
        assert (L1 : length (vsub x (vscale w c)) = d) by (rewrite vsub_length; rewrite ?vscale_length; cc).
        destruct (IH cf (vsub x (vscale w c))) as (s & Hs & E); [intros z Hz; apply Hi; right; assumption|assumption|].
        exists (vadd s (vscale w c)). split.
        * apply span_axpy; [assumption|assumption|apply span_in; assumption].
        * simpl. set (r := fold_left _ _ _) in *. pose proof (span_length _ _ _ Hs) as Ls.
          assert (Lr : length r = d).
          { unfold r. apply (gs_subtract_length d b cf); [|assumption].
            apply Forall_forall. intros z Hz. rewrite Forall_forall in HF. apply HF, Hi. right. assumption. }
          apply nth_ext_R; [rewrite !vadd_length; rewrite ?vadd_length; rewrite ?vscale_length; cc|].
          intros i Hi'. pose proof (f_equal (fun l => nth i l 0) E) as En. cbv beta in En.
          unfold vadd, vsub in *.
          assert (Lz : length (zip (K := numR) nadd s (vscale w c)) = d) by (rewrite zip_length; rewrite ?vscale_length; cc).
          rewrite !zip_nth in * by (rewrite ?vscale_length, ?Lz; ll). rewrite vscale_nth in *. simpl in *. lra. }
  apply G; [apply incl_refl|assumption].
Qed.

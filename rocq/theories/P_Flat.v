(** Flats, feet of perpendiculars and volumes of simplices in any dimension. *)
From Coq Require Import Reals Lra Psatz Permutation.
From Verif Require Import P_Base M_Conn M_Mesh M_Vec S_Vec P_Vec P_GS S_Geom P_Geom S_GeomN.
Local Open Scope R_scope.

(** * Weighted sums *)
Definition W (l : list (R * point)) (f : point -> R) : R := Rsum (map (fun wp => fst wp * f (snd wp)) l).

Lemma W_app l l' f : W (l ++ l') f = W l f + W l' f.
Proof. unfold W. rewrite map_app, Rsum_app. reflexivity. Qed.
Lemma W_cons w p l f : W ((w, p) :: l) f = w * f p + W l f.
Proof. reflexivity. Qed.
Lemma W_perm l l' f : Permutation l l' -> W l f = W l' f.
Proof. intros H. apply Rsum_perm, Permutation_map. assumption. Qed.
Lemma W_ext l f g : (forall p, In p (map snd l) -> f p = g p) -> W l f = W l g.
Proof. intros H. apply Rsum_ext. intros [w p] Hp. cbn. rewrite H; [reflexivity|]. apply (in_map snd) in Hp. exact Hp. Qed.
Lemma W_const l c : W l (fun _ => c) = Rsum (map fst l) * c.
Proof. unfold W. induction l as [|[w p] l IH]; simpl; [ring|]. rewrite IH. ring. Qed.
Lemma W_scale l a f : W l (fun p => a * f p) = a * W l f.
Proof. unfold W. rewrite <- Rsum_scale. apply Rsum_ext. intros. ring. Qed.
Lemma W_minus l f g : W l (fun p => f p - g p) = W l f - W l g.
Proof. unfold W. rewrite <- Rsum_minus. apply Rsum_ext. intros. ring. Qed.
Lemma W_zero l f : (forall wp, In wp l -> fst wp = 0) -> W l f = 0.
Proof.
  unfold W. induction l as [|[w p] l IH]; intros H; [reflexivity|]. cbn [map Rsum fst snd].
  rewrite IH by (intros; apply H; right; assumption). pose proof (H (w, p) (or_introl eq_refl)) as E. cbn in E. rewrite E. ring.
Qed.

(** a l + l', weight by weight *)
Definition wadd (a : R) (l l' : list (R * point)) : list (R * point) :=
  map (fun q => (a * fst (fst q) + fst (snd q), snd (fst q))) (combine l l').
Lemma wadd_ok a l : forall l', map snd l = map snd l' ->
  map snd (wadd a l l') = map snd l /\ forall f, W (wadd a l l') f = a * W l f + W l' f.
Proof.
  unfold wadd. induction l as [|[w p] l IH]; intros [|[w' p'] l'] H; try discriminate.
  - split; [reflexivity|]. intros. unfold W. simpl. ring.
  - cbn [map snd] in H. injection H as -> H. destruct (IH l' H) as [I1 I2]. split.
    + cbn [combine map snd fst]. f_equal. exact I1.
    + intros f. cbn [combine map snd fst]. rewrite !W_cons, I2. ring.
Qed.
Lemma wadd_sum a l l' : map snd l = map snd l' -> Rsum (map fst (wadd a l l')) = a * Rsum (map fst l) + Rsum (map fst l').
Proof.
  intros H. destruct (wadd_ok a l l' H) as [_ E]. specialize (E (fun _ => 1)). rewrite !W_const in E. lra.
Qed.
Lemma zero_w ps : exists l, map snd l = ps /\ forall f, W l f = 0.
Proof.
  exists (map (fun p => (0, p)) ps). split.
  - rewrite map_map. apply map_id.
  - intros f. apply W_zero. intros wp H. apply in_map_iff in H as (p & <- & _). reflexivity.
Qed.
Lemma unit_w a p ps : In p ps -> exists l, map snd l = ps /\ forall f, W l f = a * f p.
Proof.
  intros H. apply in_split in H as (l1 & l2 & ->).
  destruct (zero_w l1) as (z1 & E1 & Z1). destruct (zero_w l2) as (z2 & E2 & Z2).
  exists (z1 ++ (a, p) :: z2). split; [rewrite map_app; cbn [map snd]; congruence|].
  intros f. rewrite W_app, W_cons, Z1, Z2. ring.
Qed.
Lemma W_sum l : Rsum (map fst l) = W l (fun _ => 1).
Proof. rewrite W_const. ring. Qed.

(** * Combinations *)
Section Flat.
Variable d : nat.
Notation lens := (Forall (fun w : point => length w = d)).

Lemma is_comb_W l q : is_comb d l q <-> length q = d /\ forall i, (i < d)%nat -> nth i q 0 = W l (fun p => nth i p 0).
Proof. reflexivity. Qed.
Lemma comb_ex l : exists q, is_comb d l q.
Proof.
  exists (map (fun i => W l (fun p => nth i p 0)) (seq 0 d)). split; [rewrite map_length, seq_length; reflexivity|].
  intros i Hi. rewrite (nth_indep _ 0 (W l (fun p => nth 0%nat p 0))) by (rewrite map_length, seq_length; assumption).
  rewrite (map_nth (fun i => W l (fun p => nth i p 0)) (seq 0 d) 0%nat i), seq_nth by assumption. reflexivity.
Qed.
Lemma comb_det l q q' : is_comb d l q -> is_comb d l q' -> q = q'.
Proof. intros [L H] [L' H']. apply nth_ext_R; [congruence|]. intros i Hi. rewrite H, H' by congruence. reflexivity. Qed.

Lemma sprod_seq (u v : point) : sprod u v = Rsum (map (fun i => nth i u 0 * nth i v 0) (seq 0 (length u))).
Proof.
  revert v. induction u as [|a u IH]; intros v; [reflexivity|]. cbn [length seq map Rsum nth].
  rewrite <- seq_shift, map_map. destruct v as [|b v].
  - cbn [sprod nth]. rewrite (Rsum_ext _ (fun _ => 0)) by (intros [|x] _; cbn [nth]; ring). rewrite Rsum_const. ring.
  - cbn [sprod nth]. rewrite IH. reflexivity.
Qed.
Lemma Rsum_swap {A B} (f : A -> B -> R) la lb :
  Rsum (map (fun a => Rsum (map (f a) lb)) la) = Rsum (map (fun b => Rsum (map (fun a => f a b) la)) lb).
Proof.
  induction la as [|a la IH]; simpl.
  - rewrite Rsum_const. ring.
  - rewrite IH, <- Rsum_plus. reflexivity.
Qed.
Lemma comb_sprod l q u : is_comb d l q -> length u = d -> sprod q u = W l (fun p => sprod p u).
Proof.
  intros [L H] Lu. rewrite sprod_comm, sprod_seq, Lu. unfold W.
  rewrite (Rsum_ext (fun wp => fst wp * sprod (snd wp) u)
    (fun wp => Rsum (map (fun i => fst wp * (nth i u 0 * nth i (snd wp) 0)) (seq 0 d)))).
  2:{ intros wp _. rewrite Rsum_scale, (sprod_comm (snd wp)), sprod_seq, Lu. reflexivity. }
  rewrite Rsum_swap. apply Rsum_ext. intros i Hi. apply in_seq in Hi. rewrite H by lia. rewrite <- Rsum_scale.
  apply Rsum_ext. intros. ring.
Qed.

(** Two vectors are equal when their difference has length zero. *)
Lemma diff_zero (p q : point) : length p = length q -> sprod (diff p q) (diff p q) = 0 -> p = q.
Proof.
  revert q. induction p as [|x p IH]; intros [|y q] L H; try discriminate; [reflexivity|]. simpl in H.
  pose proof (sprod_nonneg (diff p q)). pose proof (Rle_0_sqr (x - y)) as Hs. unfold Rsqr in Hs.
  f_equal; [nra|]. apply IH; [simpl in L; lia|lra].
Qed.

(** * Flats *)
Lemma flat_length ps q : on_flat d ps q -> length q = d.
Proof. intros (l & _ & _ & L & _). exact L. Qed.
Lemma flat_in ps p : In p ps -> length p = d -> on_flat d ps p.
Proof.
  intros H L. destruct (unit_w 1 p ps H) as (l & E & Hl). exists l. split; [assumption|]. split; [rewrite W_sum, Hl; ring|].
  split; [assumption|]. intros i Hi. unfold W in Hl. rewrite (Hl (fun p => nth i p 0)). ring.
Qed.
Lemma comb_flat ps l : (forall p, In p (map snd l) -> on_flat d ps p) ->
  exists l', map snd l' = ps /\ Rsum (map fst l') = Rsum (map fst l) /\ forall i, (i < d)%nat -> W l' (fun p => nth i p 0) = W l (fun p => nth i p 0).
Proof.
  induction l as [|[w p] l IH]; intros H.
  - destruct (zero_w ps) as (l & E & Z). exists l. split; [assumption|]. split; [rewrite W_sum; apply Z|]. intros. apply Z.
  - destruct IH as (l' & E & S & C); [intros; apply H; right; assumption|].
    destruct (H p (or_introl eq_refl)) as (lp & Ep & Sp & Lp & Cp).
    destruct (wadd_ok w lp l') as [E' A]; [congruence|]. exists (wadd w lp l'). split; [congruence|]. split.
    + rewrite wadd_sum by congruence. cbn [map Rsum fst]. rewrite S, Sp. ring.
    + intros i Hi. rewrite A, W_cons, C by assumption. unfold W at 1. rewrite <- Cp by assumption. reflexivity.
Qed.
Lemma flat_trans ps ps' q : (forall p, In p ps' -> on_flat d ps p) -> on_flat d ps' q -> on_flat d ps q.
Proof.
  intros H (l & E & S & L & C). destruct (comb_flat ps l) as (l' & E' & S' & C'); [rewrite E; assumption|].
  exists l'. split; [assumption|]. split; [congruence|]. split; [assumption|]. intros i Hi. rewrite C by assumption.
  symmetry. apply C'. assumption.
Qed.
Lemma flat_incl ps ps' q : lens ps -> incl ps' ps -> on_flat d ps' q -> on_flat d ps q.
Proof. rewrite Forall_forall. intros HF H. apply flat_trans. intros p Hp. apply flat_in; auto. Qed.
Lemma perm_w {A} (l : list (R * A)) ps : Permutation (map snd l) ps -> exists l', map snd l' = ps /\ Permutation l l'.
Proof. intros H. symmetry in H; apply Permutation_map_inv in H as (l' & -> & Hp). eauto. Qed.

(** A linear function that is constant on the points is constant on the flat. *)
Lemma flat_const ps q u c : on_flat d ps q -> length u = d -> (forall p, In p ps -> sprod p u = c) -> sprod q u = c.
Proof.
  intros (l & E & S & C) Lu H. rewrite (comb_sprod l q u C Lu). rewrite (W_ext _ _ (fun _ => c)) by (rewrite E; assumption).
  rewrite W_const, S. ring.
Qed.
Lemma flat_nonempty ps q : on_flat d ps q -> ps <> [].
Proof. intros (l & E & S & _) ->. apply map_eq_nil in E. subst l. simpl in S. lra. Qed.

Lemma foot_all ps x q q' : lens ps -> length x = d -> foot d ps x q -> on_flat d ps q' -> sprod (diff x q) (diff q' q) = 0.
Proof.
  intros HF Lx [Hq Ho] Hq'. pose proof (flat_length _ _ Hq). pose proof (flat_length _ _ Hq').
  destruct ps as [|p0 r] eqn:Ep; [exfalso; apply (flat_nonempty _ _ Hq); reflexivity|]. rewrite <- Ep in *.
  rewrite Forall_forall in HF.
  assert (Lu : length (diff x q) = d) by (rewrite diff_length; congruence).
  assert (C : forall p, In p ps -> sprod p (diff x q) = sprod p0 (diff x q)).
  { intros p Hp. pose proof (Ho p p0 Hp ltac:(rewrite Ep; left; reflexivity)) as E.
    rewrite sprod_diff_r in E by (rewrite !HF by (try assumption; rewrite Ep; left; reflexivity); reflexivity).
    rewrite !(sprod_comm (diff x q)) in E. lra. }
  rewrite sprod_diff_r by congruence. rewrite !(sprod_comm (diff x q)).
  rewrite (flat_const _ _ _ _ Hq Lu C), (flat_const _ _ _ _ Hq' Lu C). ring.
Qed.
Lemma foot_intro ps x q : lens ps -> length x = d -> on_flat d ps q -> (forall p, In p ps -> sprod (diff x q) (diff p q) = 0) -> foot d ps x q.
Proof.
  intros HF Lx Hq H. split; [assumption|]. intros p p' Hp Hp'. pose proof (flat_length _ _ Hq). rewrite Forall_forall in HF.
  pose proof (H p Hp) as E. pose proof (H p' Hp') as E'.
  rewrite sprod_diff_r in E, E' by (rewrite HF by assumption; congruence).
  rewrite sprod_diff_r by (rewrite !HF by assumption; congruence). lra.
Qed.
Lemma foot_flat ps ps' x q : lens ps -> lens ps' -> length x = d -> (forall p, In p ps' -> on_flat d ps p) -> (forall p, In p ps -> on_flat d ps' p) ->
  foot d ps x q -> foot d ps' x q.
Proof.
  intros HF HF' Lx H1 H2 Hf. apply foot_intro; try assumption.
  - eapply flat_trans; [|apply Hf]. assumption.
  - intros p Hp. apply (foot_all ps); auto.
Qed.
Lemma height_flat ps ps' x h : lens ps -> lens ps' -> length x = d -> (forall p, In p ps' -> on_flat d ps p) -> (forall p, In p ps -> on_flat d ps' p) ->
  height d ps x h -> height d ps' x h.
Proof. intros HF HF' Lx H1 H2 (q & Hq & E). exists q. split; [|assumption]. eapply foot_flat; [exact HF| | | | |exact Hq]; assumption. Qed.

Ltac sq := rewrite ?sprod_diff_l, ?sprod_diff_r by (rewrite ?diff_length; congruence).
Lemma foot_unique ps x q q' : lens ps -> length x = d -> foot d ps x q -> foot d ps x q' -> q = q'.
Proof.
  intros HF Lx H H'. pose proof (flat_length _ _ (proj1 H)) as L. pose proof (flat_length _ _ (proj1 H')) as L'.
  apply diff_zero; [congruence|].
  pose proof (foot_all _ _ _ _ HF Lx H (proj1 H')) as E. pose proof (foot_all _ _ _ _ HF Lx H' (proj1 H)) as E'.
  revert E E'. sq. rewrite (sprod_comm q' q). lra.
Qed.
Lemma height_unique ps x h h' : lens ps -> length x = d -> height d ps x h -> height d ps x h' -> h = h'.
Proof. intros HF Lx (q & H & ->) (q' & H' & ->). rewrite (foot_unique ps x q q') by assumption. reflexivity. Qed.
(** The foot is the nearest point of the flat. *)
Lemma height_min ps x h q : lens ps -> length x = d -> height d ps x h -> on_flat d ps q -> h <= dist x q.
Proof.
  intros HF Lx (f & H & ->) Hq. unfold dist. apply sqrt_le_1_alt.
  pose proof (foot_all _ _ _ _ HF Lx H Hq) as E. pose proof (flat_length _ _ (proj1 H)). pose proof (flat_length _ _ Hq).
  pose proof (sprod_nonneg (diff q f)) as P. revert E P. sq. rewrite ?(sprod_comm q x), ?(sprod_comm f x), ?(sprod_comm f q). lra.
Qed.
Lemma height_nonneg ps x h : height d ps x h -> 0 <= h.
Proof. intros (q & _ & ->). apply sqrt_pos. Qed.
Lemma height_zero ps x h : length x = d -> height d ps x h -> h = 0 -> on_flat d ps x.
Proof.
  intros Lx (q & [Hq _] & ->) E. pose proof (flat_length _ _ Hq). replace x with q; [assumption|].
  symmetry. apply diff_zero; [congruence|]. apply sqrt_eq_0; [apply sprod_nonneg|exact E].
Qed.

(** * Affine independence *)
Lemma aff_indep_perm ps ps' : Permutation ps ps' -> aff_indep d ps -> aff_indep d ps'.
Proof.
  intros HP H l E S C wp Hw. destruct (perm_w l ps) as (l' & E' & P'); [rewrite E; symmetry; assumption|].
  apply (H l' E'); [|split; [apply C|]|eapply Permutation_in; eassumption].
  - rewrite <- S. apply Rsum_perm, Permutation_map. symmetry. assumption.
  - intros i Hi. rewrite (proj2 C i Hi). apply (W_perm l l' (fun p => nth i p 0)). assumption.
Qed.
Lemma aff_indep_tl x ps : aff_indep d (x :: ps) -> aff_indep d ps.
Proof.
  intros H l E S C wp Hw. apply (H ((0, x) :: l)); [cbn; congruence|cbn; rewrite S; ring| |right; assumption].
  split; [apply C|]. intros i Hi. rewrite (proj2 C i Hi). cbn [map Rsum fst snd]. ring.
Qed.
Lemma aff_indep_off x ps : aff_indep d (x :: ps) -> ~ on_flat d ps x.
Proof.
  intros H (l & E & S & L & C).
  assert (Q : fst (-1, x) = 0).
  { apply (H ((-1, x) :: l)); [cbn; congruence|cbn; rewrite S; ring| |left; reflexivity].
    split; [apply repeat_length|]. intros i Hi. cbn [map Rsum fst snd]. rewrite <- C by assumption. rewrite nth_repeat. ring. }
  cbn in Q. lra.
Qed.
Lemma aff_indep_cons x ps : length x = d -> aff_indep d ps -> ~ on_flat d ps x -> aff_indep d (x :: ps).
Proof.
  intros Lx H Hn l E S C wp Hw. destruct l as [|[w y] l]; [discriminate|]. cbn [map snd] in E. injection E as -> E.
  cbn [map Rsum fst snd] in S.
  assert (Z : w = 0).
  { destruct (Req_EM_T w 0) as [|Nw]; [assumption|]. exfalso. apply Hn.
    destruct (zero_w ps) as (z & Ez & Z). destruct (wadd_ok (- / w) l z) as [E' A]; [congruence|].
    exists (wadd (- / w) l z). split; [congruence|]. split.
    - rewrite W_sum, A, Z, <- W_sum. replace (Rsum (map fst l)) with (- w) by lra. field. assumption.
    - split; [assumption|]. intros i Hi. pose proof (proj2 C i Hi) as Ci. rewrite nth_repeat in Ci. cbn [map Rsum fst snd] in Ci.
      pose proof (A (fun p => nth i p 0)) as Ai. unfold W in Ai. rewrite Ai.
      replace (Rsum (map (fun wp0 => fst wp0 * nth i (snd wp0) 0) l)) with (- (w * nth i x 0)) by lra.
      specialize (Z (fun p => nth i p 0)). unfold W in Z. rewrite Z. field. assumption. }
  subst w. destruct Hw as [<-|Hw]; [reflexivity|]. apply (H l E); [lra| |assumption].
  split; [apply C|]. intros i Hi. rewrite (proj2 C i Hi). cbn [map Rsum fst snd]. ring.
Qed.
Lemma aff_indep_nil : aff_indep d [].
Proof. intros l E _ _ wp H. apply map_eq_nil in E. subst. destruct H. Qed.
Lemma aff_indep_one p : length p = d -> aff_indep d [p].
Proof. intros L. apply aff_indep_cons; [assumption|apply aff_indep_nil|]. intros H. exact (flat_nonempty _ _ H eq_refl). Qed.
Lemma aff_indep_nodup ps : lens ps -> aff_indep d ps -> NoDup ps.
Proof.
  induction ps as [|x ps IH]; intros HF H; constructor.
  - intros Hin. apply (aff_indep_off _ _ H). apply flat_in; [assumption|]. apply Forall_cons_iff in HF. tauto.
  - apply IH; [apply Forall_cons_iff in HF; tauto|]. eapply aff_indep_tl. eassumption.
Qed.

(** * Combinations of directions *)
Lemma span_w r p0 s : lens r -> length p0 = d -> in_span d (map (fun p => diff p p0) r) s ->
  exists l, map snd l = r /\ forall i, (i < d)%nat -> nth i s 0 = W l (fun p => nth i p 0 - nth i p0 0).
Proof.
  intros HF L0 H. induction H as [|x y a w Hy IH Hw Hx].
  - destruct (zero_w r) as (l & E & Z). exists l. split; [assumption|]. intros. rewrite Z, nth_repeat. reflexivity.
  - destruct IH as (l & E & C). apply in_map_iff in Hw as (p & <- & Hp).
    destruct (unit_w a p r Hp) as (u & Eu & U). destruct (wadd_ok 1 u l) as [E' A]; [congruence|].
    exists (wadd 1 u l). split; [congruence|]. intros i Hi. rewrite A, U, <- C by assumption.
    destruct Hx as (L1 & L2 & Hx). rewrite Forall_forall in HF. specialize (HF p Hp).
    rewrite Hx by (rewrite L2, diff_length; congruence).
    assert (Ed : nth i (diff p p0) 0 = nth i p 0 - nth i p0 0).
    { rewrite <- vsub_diff. apply (zip_nth Rminus); congruence. }
    rewrite Ed. ring.
Qed.
Lemma shifted_flat r p0 s q : lens r -> length p0 = d -> in_span d (map (fun p => diff p p0) r) s ->
  length q = d -> (forall i, (i < d)%nat -> nth i q 0 = nth i p0 0 + nth i s 0) -> on_flat d (p0 :: r) q.
Proof.
  intros HF L0 H Lq Hq. destruct (span_w r p0 s HF L0 H) as (l & E & C).
  exists ((1 - Rsum (map fst l), p0) :: l). split; [cbn; congruence|]. split; [cbn; ring|]. split; [assumption|].
  intros i Hi. rewrite Hq, C by assumption. cbn [map Rsum fst snd]. rewrite W_minus, W_const. unfold W. ring.
Qed.
Lemma aff_lin p0 r : lens r -> length p0 = d -> aff_indep d (p0 :: r) -> lin_indep d (map (fun p => diff p p0) r).
Proof.
  intros HF L0 H i v Hv Hs. rewrite nth_error_map in Hv. destruct (nth_error r i) as [p|] eqn:Ep; [|discriminate].
  injection Hv as <-. rewrite firstn_map in Hs. destruct (nth_error_split _ _ Ep) as (r1 & r2 & -> & Li).
  rewrite <- Li, firstn_app, Nat.sub_diag, firstn_all in Hs. cbn [firstn] in Hs. rewrite app_nil_r in Hs.
  apply Forall_app in HF as [HF1 HF2]. apply Forall_cons_iff in HF2 as [Lp HF2].
  assert (P : Permutation (p0 :: r1 ++ p :: r2) (r2 ++ p :: p0 :: r1)).
  { rewrite app_comm_cons. etransitivity; [apply Permutation_app_comm|]. cbn. apply Permutation_middle. }
  apply (aff_indep_perm _ _ P) in H.
  assert (H' : aff_indep d (p :: p0 :: r1)).
  { clear -H. induction r2 as [|x r2 IH]; [assumption|]. apply IH. eapply aff_indep_tl. exact H. }
  apply (aff_indep_off _ _ H'). eapply shifted_flat; try eassumption.
  intros j Hj. rewrite <- vsub_diff. assert (E : nth j (vsub (K := numR) p p0) 0 = nth j p 0 - nth j p0 0) by (apply (zip_nth Rminus); cc).
  etransitivity; [|apply f_equal2; [reflexivity|symmetry; exact E]]. ring.
Qed.

(** * Gram-Schmidt finds the foot of the perpendicular *)
Lemma gs_loop_app (a b : list rv) : forall done, gs_loop (K := numR) done (a ++ b) = gs_loop (K := numR) (gs_loop (K := numR) done a) b.
Proof. induction a as [|v a IH]; intros done; [reflexivity|]. cbn [app]. rewrite !gs_loop_eq. apply IH. Qed.

Lemma gs_foot p0 r x : lens (p0 :: r) -> length x = d -> aff_indep d (p0 :: r) ->
  exists q es ns k, foot d (p0 :: r) x q /\
    gramSchmidtN (K := numR) (map (fun p => diff p p0) r ++ [diff x p0]) = Ok (es ++ [fst (nz (diff x q, k))], ns ++ [dist x q]).
Proof.
  intros HF Lx Ha. apply Forall_cons_iff in HF as [L0 HF].
  set (us := map (fun p => diff p p0) r). set (w := diff x p0).
  assert (Lus : lens us).
  { apply Forall_forall. intros v Hv. apply in_map_iff in Hv as (p & <- & Hp). rewrite Forall_forall in HF.
    rewrite diff_length; rewrite HF; cc. }
  assert (Lw : length w = d) by (unfold w; rewrite diff_length; cc).
  assert (HI : lin_indep d us) by (apply aff_lin; assumption).
  pose proof (gs_loop_indep d us [] [] (gsinv_nil d) Lus HI) as I. cbn [app] in I.
  set (done := gs_loop (K := numR) [] us) in *. set (v := gs_next done w).
  destruct (gs_subtract_back d (map fst done) (gs_coef (K := numR) done w) w (gi_lens _ _ _ I) Lw) as (s & Hs & Es).
  change (gs_subtract (K := numR) (map fst done) (gs_coef (K := numR) done w) w) with v in Es.
  assert (Lv : length v = d) by (apply (gs_next_length d us); assumption).
  assert (Ls : length s = d) by (eapply span_length; exact Hs).
  assert (Hs' : in_span d us s) by (eapply span_trans; [exact Lus| |exact Hs]; apply span_done_pre; assumption).
  set (q := vadd (K := numR) p0 s).
  assert (Lq : length q = d) by (unfold q; rewrite vadd_length; cc).
  assert (Eq : forall i, (i < d)%nat -> nth i q 0 = nth i p0 0 + nth i s 0).
  { intros i Hi. apply (zip_nth Rplus); cc. }
  assert (Ev : v = diff x q).
  { apply nth_ext_R; [rewrite diff_length; cc|]. intros i Hi. rewrite Lv in Hi.
    assert (E1 : nth i (diff x q) 0 = nth i x 0 - nth i q 0) by (rewrite <- vsub_diff; apply (zip_nth Rminus); cc).
    assert (E2 : nth i w 0 = nth i x 0 - nth i p0 0) by (unfold w; rewrite <- vsub_diff; apply (zip_nth Rminus); cc).
    assert (E3 : nth i (vadd (K := numR) s v) 0 = nth i s 0 + nth i v 0) by (apply (zip_nth Rplus); cc).
    rewrite <- Es in E3. nr. rewrite E2 in E3. rewrite E1, Eq by assumption. lra. }
  assert (Ort : forall p, In p r -> sprod v (diff p p0) = 0).
  { intros p Hp. rewrite sprod_comm.
    assert (Hd : In (diff p p0) us) by (apply (in_map (fun p => diff p p0)); assumption).
    apply In_nth_error in Hd as (i & Hi). pose proof (gsinv_span d _ _ _ _ I Hi) as Hsp.
    eapply (in_span_orth d); [exact Hsp|]. intros z Hz.
    assert (Hz' : In z (map fst done)) by (rewrite <- (firstn_skipn (S i) (map fst done)); apply in_or_app; left; assumption).
    apply in_map_iff in Hz' as (pr & <- & Hpr). rewrite sprod_comm. unfold v, gs_next. rewrite gs_coef_sprod.
    apply (gs_step_ortho d).
    - pose proof (gi_lens _ _ _ I) as G. rewrite Forall_map in G. exact G.
    - assumption.
    - apply I.
    - assumption. }
  exists q, (map (fun p => fst (nz p)) done), (map (fun p => snd (nz p)) done), (1 / sprod v v). split.
  - split; [eapply shifted_flat; eassumption|]. rewrite <- Ev.
    rewrite Forall_forall in HF.
    assert (O : forall p, In p (p0 :: r) -> sprod v p = sprod v p0).
    { intros p [<-|Hp]; [reflexivity|]. pose proof (Ort p Hp) as E. rewrite sprod_diff_r in E by (rewrite HF by assumption; cc). lra. }
    intros p p' Hp Hp'.
    assert (Lp : length p = d) by (destruct Hp as [<-|Hp]; [assumption|apply HF; assumption]).
    assert (Lp' : length p' = d) by (destruct Hp' as [<-|Hp']; [assumption|apply HF; assumption]).
    rewrite sprod_diff_r by cc. rewrite (O p Hp), (O p' Hp'). ring.
  - destruct (us ++ [w]) as [|v0 r0] eqn:E; [destruct us; discriminate|]. rewrite gsn_start, <- E, gs_loop_app.
    change (gs_loop (K := numR) [] us) with done. rewrite gs_loop_eq. change (gs_next done w) with v. cbn [gs_loop].
    rewrite !map_app. cbn [map]. rewrite <- Ev. f_equal. f_equal. f_equal. f_equal. unfold nz, gsn_one. cbn [fst snd].
    rewrite Ev. rewrite <- vsub_diff. apply norm_dist.
Qed.
Lemma foot_exists ps x : ps <> [] -> lens ps -> length x = d -> aff_indep d ps -> exists q, foot d ps x q.
Proof.
  intros Hne HF Lx H. destruct ps as [|p0 r]; [cc|].
  destruct (gs_foot p0 r x HF Lx H) as (q & _ & _ & _ & Hq & _). eauto.
Qed.
End Flat.

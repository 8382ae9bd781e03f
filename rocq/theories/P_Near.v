(** Proofs about meshes whose vertices have moved a little. *)
From Coq Require Import Reals Lra Permutation.
From Verif Require Import P_Base M_Conn M_Index M_Mesh M_Apply S_Mesh P_Apply M_Vec S_Vec P_Vec M_Geom S_Geom P_Geom P_Centers S_Polygon P_Polygon S_Flux S_Convex P_GS3 P_Normals P_Convex T_Gauss2 M_Object T_Object S_Near.
Local Open Scope R_scope.

(** * Sums *)
Lemma Rsum_near {A B} (f : A -> R) (g : B -> R) (b : R) (la : list A) (lb : list B) :
  Forall2 (fun x y => Rabs (g y - f x) <= b) la lb -> Rabs (Rsum (map g lb) - Rsum (map f la)) <= INR (length la) * b.
Proof.
  induction 1 as [|x y la lb H F IH]; cbn [map Rsum length].
  - rewrite Rminus_0_r, Rabs_R0. cbn. lra.
  - rewrite S_INR. replace (g y + Rsum (map g lb) - (f x + Rsum (map f la))) with ((g y - f x) + (Rsum (map g lb) - Rsum (map f la))) by ring.
    eapply Rle_trans; [apply Rabs_triang|]. lra.
Qed.
Lemma Rabs_abs_le x y : Rabs (Rabs x - Rabs y) <= Rabs (x - y).
Proof. apply Rabs_triang_inv2. Qed.

(** * Means *)
Lemma nth_far (p : point) i : (length p <= i)%nat -> nth i p 0 = 0.
Proof. intros H. apply nth_overflow. exact H. Qed.
Lemma near_pos d p p' : near_point d p p' -> 0 <= d.
Proof. intros H. eapply Rle_trans; [apply Rabs_pos|apply (H 0%nat)]. Qed.
Lemma near_mean n d ps ps' c c' : is_mean n ps c -> is_mean n ps' c' -> ps <> [] -> Forall2 (near_point d) ps ps' -> near_point d c c'.
Proof.
  intros [L H] [L' H'] NE F i.
  assert (Hd : 0 <= d) by (destruct F; [congruence|eapply near_pos; eassumption]).
  destruct (Nat.lt_ge_cases i n) as [Hi|Hi].
  - rewrite (H i Hi), (H' i Hi). rewrite <- (Forall2_length' _ _ _ F).
    assert (HN : 0 < INR (length ps)) by (apply lt_0_INR; destruct ps; [congruence|simpl; lia]).
    unfold Rdiv. rewrite <- Rmult_minus_distr_r, Rabs_mult, (Rabs_right (/ INR (length ps))) by (apply Rle_ge, Rlt_le, Rinv_0_lt_compat; assumption).
    apply Rmult_le_reg_r with (INR (length ps)); [assumption|]. rewrite Rmult_assoc, Rinv_l, Rmult_1_r by lra. rewrite (Rmult_comm d).
    apply Rsum_near. eapply Forall2_mono; [|exact F]. intros p q Hpq. apply Hpq.
  - rewrite !nth_far by lia. rewrite Rminus_0_r, Rabs_R0. assumption.
Qed.
Lemma Rsum_abs_const {A} (f : A -> R) b l : (forall x, In x l -> Rabs (f x) <= b) -> Rabs (Rsum (map f l)) <= INR (length l) * b.
Proof.
  intros H. eapply Rle_trans; [apply Rsum_abs|]. rewrite <- Rsum_const. induction l as [|x l IH]; cbn [map Rsum]; [lra|].
  pose proof (H x (or_introl eq_refl)). specialize (IH ltac:(intros; apply H; right; assumption)). lra.
Qed.
(** The mean lies in the box. *)
Lemma mean_width n w ps c : is_mean n ps c -> (forall p, In p ps -> length p = n) -> forall q, length q = n -> (forall p i, In p ps -> Rabs (nth i p 0 - nth i q 0) <= w) -> ps <> [] ->
  forall i, Rabs (nth i c 0 - nth i q 0) <= w.
Proof.
  intros [L H] LP q Lq HW NE i.
  assert (Hw : 0 <= w) by (destruct ps as [|p ps]; [congruence|]; eapply Rle_trans; [apply Rabs_pos|apply (HW p 0%nat); left; reflexivity]).
  destruct (Nat.lt_ge_cases i n) as [Hi|Hi].
  - rewrite (H i Hi). assert (HN : 0 < INR (length ps)) by (apply lt_0_INR; destruct ps; [congruence|simpl; lia]).
    replace (Rsum (map (fun p => nth i p 0) ps) / INR (length ps) - nth i q 0) with (Rsum (map (fun p => nth i p 0 - nth i q 0) ps) * / INR (length ps))
      by (rewrite Rsum_minus, Rsum_const; field; lra).
    rewrite Rabs_mult, (Rabs_right (/ INR (length ps))) by (apply Rle_ge, Rlt_le, Rinv_0_lt_compat; assumption).
    apply Rmult_le_reg_r with (INR (length ps)); [assumption|]. rewrite Rmult_assoc, Rinv_l, Rmult_1_r by lra. rewrite (Rmult_comm w).
    apply Rsum_abs_const. intros p Hp. apply HW. assumption.
  - rewrite !nth_far by lia. rewrite Rminus_0_r, Rabs_R0. assumption.
Qed.

(** * Products of perturbed differences *)
Lemma prod_near a b a' b' w d : Rabs a <= w -> Rabs b <= w -> Rabs (a' - a) <= 2 * d -> Rabs (b' - b) <= 2 * d ->
  Rabs (a' * b' - a * b) <= (w + 2 * d) * (w + 2 * d) - w * w.
Proof.
  intros Ha Hb Ha' Hb'. replace (a' * b' - a * b) with (a * (b' - b) + (a' - a) * b + (a' - a) * (b' - b)) by ring.
  assert (P : forall x y X Y, Rabs x <= X -> Rabs y <= Y -> Rabs (x * y) <= X * Y).
  { intros x y X Y Hx Hy. rewrite Rabs_mult. apply Rmult_le_compat; try apply Rabs_pos; assumption. }
  pose proof (P _ _ _ _ Ha Hb'). pose proof (P _ _ _ _ Ha' Hb). pose proof (P _ _ _ _ Ha' Hb').
  eapply Rle_trans; [apply Rabs_triang|]. eapply Rle_trans; [apply Rplus_le_compat_r, Rabs_triang|]. lra.
Qed.
Lemma diff_near d p q p' q' i : near_point d p p' -> near_point d q q' -> Rabs ((nth i p' 0 - nth i q' 0) - (nth i p 0 - nth i q 0)) <= 2 * d.
Proof.
  intros H K. replace (nth i p' 0 - nth i q' 0 - (nth i p 0 - nth i q 0)) with ((nth i p' 0 - nth i p 0) + - (nth i q' 0 - nth i q 0)) by ring.
  eapply Rle_trans; [apply Rabs_triang|]. rewrite Rabs_Ropp. specialize (H i). specialize (K i). lra.
Qed.
Definition box (w : R) (c p : point) : Prop := forall i, Rabs (nth i p 0 - nth i c 0) <= w.
Lemma area2_near d w c a b c' a' b' : near_point d c c' -> near_point d a a' -> near_point d b b' -> box w c a -> box w c b ->
  Rabs (Rabs (area2 c' a' b') / 2 - Rabs (area2 c a b) / 2) <= (w + 2 * d) * (w + 2 * d) - w * w.
Proof.
  intros Hc Ha Hb Ba Bb. unfold Rdiv. rewrite <- Rmult_minus_distr_r, Rabs_mult, (Rabs_right (/ 2)) by lra.
  assert (H : Rabs (area2 c' a' b' - area2 c a b) <= 2 * ((w + 2 * d) * (w + 2 * d) - w * w)).
  { unfold area2, det2, px, py.
    pose proof (prod_near _ _ _ _ w d (Ba 0%nat) (Bb 1%nat) (diff_near d _ _ _ _ 0 Ha Hc) (diff_near d _ _ _ _ 1 Hb Hc)) as P1.
    pose proof (prod_near _ _ _ _ w d (Ba 1%nat) (Bb 0%nat) (diff_near d _ _ _ _ 1 Ha Hc) (diff_near d _ _ _ _ 0 Hb Hc)) as P2.
    match goal with |- Rabs (?x' * ?y' - ?z' * ?t' - (?x * ?y - ?z * ?t)) <= _ =>
      replace (x' * y' - z' * t' - (x * y - z * t)) with ((x' * y' - x * y) + - (z' * t' - z * t)) by ring end.
    eapply Rle_trans; [apply Rabs_triang|]. rewrite Rabs_Ropp. lra. }
  pose proof (Rabs_abs_le (area2 c' a' b') (area2 c a b)). lra.
Qed.

(** * Norms *)
Lemma diff_nth p q i : length p = length q -> nth i (diff p q) 0 = nth i p 0 - nth i q 0.
Proof.
  revert q i. induction p as [|x p IH]; intros [|y q] i L; try discriminate.
  - destruct i; simpl; ring.
  - destruct i as [|i]; [reflexivity|]. cbn [diff nth]. apply IH. simpl in L. lia.
Qed.
Lemma diff_length p q : length p = length q -> length (diff p q) = length p.
Proof. revert q. induction p as [|x p IH]; intros [|y q] L; try discriminate; simpl in *; auto. Qed.
Lemma sprod_bound u b : (forall i, Rabs (nth i u 0) <= b) -> sprod u u <= INR (length u) * (b * b).
Proof.
  induction u as [|x u IH]; intros H; [simpl; lra|]. cbn [length sprod]. rewrite S_INR.
  pose proof (H 0%nat) as H0. cbn [nth] in H0. specialize (IH (fun i => H (Datatypes.S i))).
  assert (x * x <= b * b). { replace (x * x) with (Rabs x * Rabs x) by (rewrite <- Rabs_mult; apply Rabs_pos_eq, Rle_0_sqr). apply Rmult_le_compat; try apply Rabs_pos; assumption. } lra.
Qed.
Definition nrm (u : point) : R := sqrt (sprod u u).
Lemma nrm_pos u : 0 <= nrm u.
Proof. apply sqrt_pos. Qed.
Lemma nrm_sq u : nrm u * nrm u = sprod u u.
Proof. apply sqrt_sqrt, sprod_nonneg. Qed.
Lemma sprod_split : forall u v, length u = length v -> sprod u u = sprod v v + 2 * sprod v (diff u v) + sprod (diff u v) (diff u v).
Proof. induction u as [|x u IH]; intros [|y v] L; try discriminate; simpl; [ring|]. rewrite (IH v) by (simpl in L; lia). ring. Qed.
Lemma nrm_diff_sym : forall u v, sprod (diff u v) (diff u v) = sprod (diff v u) (diff v u).
Proof. induction u as [|x u IH]; intros [|y v]; simpl; try reflexivity. rewrite IH. ring. Qed.
Lemma nrm_le u v : length u = length v -> nrm u <= nrm v + nrm (diff u v).
Proof.
  intros L. apply Rsqr_incr_0; [|apply nrm_pos|pose proof (nrm_pos v); pose proof (nrm_pos (diff u v)); lra].
  unfold Rsqr. rewrite nrm_sq, (sprod_split u v L).
  assert (LD : length v = length (diff u v)) by (rewrite diff_length by assumption; congruence).
  assert (CS : sprod v (diff u v) <= nrm v * nrm (diff u v)).
  { destruct (Rle_lt_dec (sprod v (diff u v)) 0) as [H|H].
    - pose proof (Rmult_le_pos _ _ (nrm_pos v) (nrm_pos (diff u v))). lra.
    - apply Rsqr_incr_0; [|lra|apply Rmult_le_pos; apply nrm_pos]. unfold Rsqr.
      replace (nrm v * nrm (diff u v) * (nrm v * nrm (diff u v))) with ((nrm v * nrm v) * (nrm (diff u v) * nrm (diff u v))) by ring.
      rewrite !nrm_sq. apply sprod_cs. exact LD. }
  replace ((nrm v + nrm (diff u v)) * (nrm v + nrm (diff u v))) with (nrm v * nrm v + 2 * (nrm v * nrm (diff u v)) + nrm (diff u v) * nrm (diff u v)) by ring.
  rewrite !nrm_sq. lra.
Qed.
Lemma nrm_near u v : length u = length v -> Rabs (nrm u - nrm v) <= nrm (diff u v).
Proof.
  intros L. pose proof (nrm_le u v L). pose proof (nrm_le v u (eq_sym L)) as H'.
  unfold nrm in H' at 3. rewrite nrm_diff_sym in H'. fold (nrm (diff u v)) in H'. apply Rabs_le. lra.
Qed.
Lemma nrm_bound u b : 0 <= b -> (forall i, Rabs (nth i u 0) <= b) -> nrm u <= sqrt (INR (length u)) * b.
Proof.
  intros Hb H. unfold nrm. rewrite <- (sqrt_square b Hb), <- sqrt_mult; [|apply pos_INR|apply Rle_0_sqr].
  apply sqrt_le_1_alt. apply sprod_bound. exact H.
Qed.
(** Distances of moved points. *)
Lemma dist_near d a b a' b' : length a = length b -> length a' = length a -> length b' = length b -> near_point d a a' -> near_point d b b' ->
  Rabs (dist a' b' - dist a b) <= sqrt (INR (length a)) * (2 * d).
Proof.
  intros L La Lb Ha Hb. change (dist a' b') with (nrm (diff a' b')). change (dist a b) with (nrm (diff a b)).
  assert (L1 : length (diff a' b') = length a) by (rewrite diff_length; congruence). assert (L2 : length (diff a b) = length a) by (apply diff_length; exact L).
  eapply Rle_trans; [apply nrm_near; congruence|].
  assert (L3 : length (diff (diff a' b') (diff a b)) = length a) by (rewrite diff_length; congruence). rewrite <- L3. apply nrm_bound.
  - pose proof (near_pos _ _ _ Ha). lra.
  - intros i. rewrite diff_nth, !diff_nth by congruence. apply (diff_near d); assumption.
Qed.
(** Areas of moved triangles in space. *)
Definition crossp (u v : point) : point :=
  [nth 1 u 0 * nth 2 v 0 - nth 2 u 0 * nth 1 v 0; nth 2 u 0 * nth 0 v 0 - nth 0 u 0 * nth 2 v 0; nth 0 u 0 * nth 1 v 0 - nth 1 u 0 * nth 0 v 0].
Lemma tri_cross c a b : length c = 3%nat -> length a = 3%nat -> length b = 3%nat -> tri_area c a b = nrm (crossp (diff a c) (diff b c)) / 2.
Proof.
  intros Lc La Lb. destruct (len3 c Lc) as (c0 & c1 & c2 & ->). destruct (len3 a La) as (a0 & a1 & a2 & ->). destruct (len3 b Lb) as (b0 & b1 & b2 & ->).
  unfold tri_area, nrm, crossp. f_equal. f_equal. simpl. ring.
Qed.
Lemma tri_near d w c a b c' a' b' : length c = 3%nat -> length a = 3%nat -> length b = 3%nat -> length c' = 3%nat -> length a' = 3%nat -> length b' = 3%nat ->
  near_point d c c' -> near_point d a a' -> near_point d b b' -> box w c a -> box w c b ->
  Rabs (tri_area c' a' b' - tri_area c a b) <= sqrt 3 * ((w + 2 * d) * (w + 2 * d) - w * w).
Proof.
  intros Lc La Lb Lc' La' Lb' Hc Ha Hb Ba Bb. rewrite !tri_cross by assumption.
  set (B := (w + 2 * d) * (w + 2 * d) - w * w).
  assert (Hd : 0 <= d) by (eapply near_pos; eassumption). assert (Hw : 0 <= w) by (eapply Rle_trans; [apply Rabs_pos|apply (Ba 0%nat)]).
  assert (HB : 0 <= B). { unfold B. pose proof (Rmult_le_pos _ _ Hw Hd). pose proof (Rmult_le_pos _ _ Hd Hd). lra. }
  unfold Rdiv. rewrite <- Rmult_minus_distr_r, Rabs_mult, (Rabs_right (/ 2)) by lra.
  assert (H : Rabs (nrm (crossp (diff a' c') (diff b' c')) - nrm (crossp (diff a c) (diff b c))) <= sqrt 3 * (2 * B)); [|lra].
  eapply Rle_trans; [apply nrm_near; reflexivity|].
  assert (P : forall i j, Rabs (nth i (diff a' c') 0 * nth j (diff b' c') 0 - nth i (diff a c) 0 * nth j (diff b c) 0) <= B).
  { intros i j. rewrite !diff_nth by congruence. apply prod_near; [apply Ba|apply Bb|apply (diff_near d); assumption|apply (diff_near d); assumption]. }
  assert (Q : forall i j, Rabs (nth i (diff a' c') 0 * nth j (diff b' c') 0 - nth j (diff a' c') 0 * nth i (diff b' c') 0 -
    (nth i (diff a c) 0 * nth j (diff b c) 0 - nth j (diff a c) 0 * nth i (diff b c) 0)) <= 2 * B).
  { intros i j. match goal with |- Rabs (?x - ?y - (?z - ?t)) <= _ => replace (x - y - (z - t)) with ((x - z) + - (y - t)) by ring end.
    eapply Rle_trans; [apply Rabs_triang|]. rewrite Rabs_Ropp. pose proof (P i j). pose proof (P j i). lra. }
  replace 3 with (INR (length (diff (crossp (diff a' c') (diff b' c')) (crossp (diff a c) (diff b c))))) by (simpl; lra).
  apply nrm_bound; [lra|]. intros i. unfold crossp. cbn [diff].
  destruct i as [|[|[|i]]]; cbn [nth]; [apply Q|apply Q|apply Q|]. destruct i; rewrite Rabs_R0; lra.
Qed.

(** * Moved meshes *)
Section Moved.
Variables (d : R) (m m' : Mesh point).
Hypothesis MV : moved d m m'.
Lemma mv_subs k i : subs m' k i = subs m k i.
Proof. unfold subs. rewrite (mv_dim _ _ _ MV), (mv_mid _ _ _ MV), (mv_faces _ _ _ MV). reflexivity. Qed.
Lemma mv_n_elems k : n_elems m' k = n_elems m k.
Proof. unfold n_elems. rewrite (mv_dim _ _ _ MV), (mv_mid _ _ _ MV), (mv_faces _ _ _ MV), (mv_cells _ _ _ MV), (Forall2_length' _ _ _ (mv_verts _ _ _ MV)). reflexivity. Qed.
Lemma mv_chain c f0 fs : closed_chain m' c f0 fs <-> closed_chain m c f0 fs.
Proof.
  assert (E1 : forall f g, succ_face m' c f g <-> succ_face m c f g) by (intros; unfold succ_face; rewrite (mv_faces _ _ _ MV); tauto).
  induction fs as [|f [|g r] IH]; cbn [closed_chain]; [tauto|apply E1|]. rewrite E1, IH. tauto.
Qed.
Lemma mv_ring c fs : ring m' c fs <-> ring m c fs.
Proof. unfold ring. rewrite (mv_cells _ _ _ MV). setoid_rewrite (mv_chain c _ fs). tauto. Qed.
Lemma mv_children k i js : children m' k i js <-> children m k i js.
Proof. unfold children. rewrite (mv_dim _ _ _ MV), mv_subs. destruct (Nat.eqb k (m_dim m)); [apply mv_ring|tauto]. Qed.
Lemma mv_geo : geo_mesh m -> geo_mesh m'.
Proof.
  intros [[W1 W2 W3 W4] P]. pose proof (mv_dim _ _ _ MV) as ED. constructor; [constructor|].
  - rewrite ED. exact W1.
  - rewrite ED, (mv_mid _ _ _ MV). exact W2.
  - intros k i js Hk Hs. rewrite ED in Hk. rewrite mv_subs in Hs. rewrite mv_n_elems. apply (W3 k i js); assumption.
  - intros c Hc. rewrite (mv_cells _ _ _ MV) in Hc. destruct (W4 c Hc) as (fs & R). exists fs. apply mv_ring. exact R.
  - intros p' Hp'. destruct (Forall2_In_r _ _ _ _ (mv_verts _ _ _ MV) Hp') as (p & Hp & L & _). rewrite ED, L. apply P. exact Hp.
Qed.
Lemma mv_no_empty : no_empty m -> no_empty m'.
Proof. intros H k i js Hk Hs. rewrite (mv_dim _ _ _ MV) in Hk. rewrite mv_subs in Hs. eapply H; eassumption. Qed.
Lemma mv_edge e a b : edge_points m e a b -> exists a' b', edge_points m' e a' b' /\ near_point d a a' /\ near_point d b b'.
Proof.
  intros (i & j & Hs & Ha & Hb).
  destruct (Forall2_nth_l _ _ _ _ _ (mv_verts _ _ _ MV) Ha) as (a' & Ha' & _ & Na). destruct (Forall2_nth_l _ _ _ _ _ (mv_verts _ _ _ MV) Hb) as (b' & Hb' & _ & Nb).
  exists a', b'. split; [exists i, j; rewrite mv_subs; auto|auto].
Qed.
Lemma mv_edges js es : Forall2 (fun f e => edge_points m f (fst e) (snd e)) js es ->
  exists es', Forall2 (fun f e => edge_points m' f (fst e) (snd e)) js es' /\
    Forall2 (fun e e' => near_point d (fst e) (fst e') /\ near_point d (snd e) (snd e')) es es'.
Proof.
  induction 1 as [|f e js es H F (es' & A & B)]; [exists []; split; constructor|].
  destruct (mv_edge f _ _ H) as (a' & b' & E & Na & Nb). exists ((a', b') :: es'). split; constructor; auto.
Qed.
Lemma mv_centers cs cs' : geo_mesh m -> no_empty m -> centers_spec m cs -> centers_spec m' cs' ->
  forall k i c c', (1 <= k <= m_dim m)%nat -> at_ cs k i = Some c -> at_ cs' k i = Some c' -> near_point d c c'.
Proof.
  intros G HN S S'. pose proof (mv_dim _ _ _ MV) as ED.
  induction k as [|k IH]; [lia|]. intros i c c' Hk Hc Hc'.
  assert (Hi : (i < N.of_nat (n_elems m (Datatypes.S k)))%N) by (apply (at_lt _ _ _ i S Hk); eauto).
  destruct k as [|k].
  - destruct (edge_points_total m i G Hi) as (a & b & Hab). destruct (mv_edge i a b Hab) as (a' & b' & Hab' & Na & Nb).
    apply (near_mean (m_dim m) d [a; b] [a'; b']); [apply (cs_edge _ _ S i); assumption|rewrite <- ED; apply (cs_edge _ _ S' i); assumption|discriminate|].
    constructor; [assumption|constructor; [assumption|constructor]].
  - destruct (children_total m _ i (geo_wf _ G) Hk Hi) as (js & Hj).
    destruct (cs_mean _ _ S (Datatypes.S (Datatypes.S k)) i js c ltac:(lia) Hj Hc) as (ps & HF & Hm).
    destruct (cs_mean _ _ S' (Datatypes.S (Datatypes.S k)) i js c' ltac:(rewrite ED; lia) (proj2 (mv_children _ _ _) Hj) Hc') as (ps' & HF' & Hm').
    rewrite ED in Hm'. apply (near_mean (m_dim m) d ps ps'); [assumption|assumption| |].
    + intros ->. inversion HF. subst. assert (H2 : (2 <= Datatypes.S (Datatypes.S k) <= m_dim m)%nat) by lia. apply (children_nonempty m _ _ _ HN H2 Hj). reflexivity.
    + replace (Datatypes.S (Datatypes.S k) - 1)%nat with (Datatypes.S k) in * by lia. clear Hm Hm' Hj.
      revert ps' HF'. induction HF as [|j p js ps Hp HF IHF]; intros ps' HF'; inversion HF' as [|? p' ? ps'' Hp' HF'' E1 E2]; subst; constructor; [|apply IHF; assumption].
      apply (IH j p p'); [lia|assumption|assumption].
Qed.
End Moved.

(** The mean of the edge midpoints lies in the box of the end points. *)
Lemma center_box (m : Mesh point) cs k js es c ps w : geo_mesh m -> centers_spec m cs -> js <> [] ->
  Forall2 (fun f e => edge_points m f (fst e) (snd e)) js es ->
  Forall2 (fun j p => at_ cs 1 j = Some p) js ps -> is_mean (m_dim m) ps c -> width w (edge_ends es) -> k = m_dim m ->
  length c = k /\ forall e, In e es -> box w c (fst e) /\ box w c (snd e).
Proof.
  intros G S NE HE HP HM HW ->. split; [apply HM|]. 
  assert (LP : forall e, In e es -> length (fst e) = m_dim m /\ length (snd e) = m_dim m).
  { intros e He. destruct (Forall2_In_r _ _ _ _ HE He) as (f & _ & Hf). apply (edge_points_length _ _ _ _ G Hf). }
  assert (Key : forall q, In q (edge_ends es) -> length q = m_dim m -> forall i, Rabs (nth i c 0 - nth i q 0) <= w).
  { intros q Hq Lq. apply (mean_width (m_dim m) w ps c HM); [| exact Lq | |].
    - apply Forall_forall. eapply Forall2_at_length; eassumption.
    - intros p i Hp. destruct (Forall2_In_r _ _ _ _ HP Hp) as (j & Hj & Hjp). apply In_nth_error in Hj as [x Hx].
      destruct (Forall2_nth_l _ _ _ _ _ HE Hx) as (e & He & Hep). pose proof (nth_error_In _ _ He) as Hin.
      apply (mean_width (m_dim m) w [fst e; snd e] p); [eapply (cs_edge _ _ S); eassumption| |exact Lq| |discriminate].
      + intros r [<-|[<-|[]]]; apply LP; assumption.
      + intros r i' Hr. apply HW; [|exact Hq]. unfold edge_ends. apply in_or_app. destruct Hr as [<-|[<-|[]]]; [left|right]; apply in_map; assumption.
    - intros ->. inversion HP. subst. congruence. }
  intros e He. destruct (LP e He) as [L1 L2].
  split; intros i; rewrite Rabs_minus_sym; apply Key; try assumption; unfold edge_ends; apply in_or_app; [left|right]; apply in_map; assumption.
Qed.

(** C70-C72: normals, measures and simplices in a space of any dimension. *)
From Coq Require Import Reals Lra Psatz Permutation.
From Verif Require Import P_Base M_Conn M_Index M_Mesh M_Apply S_Mesh P_Apply M_Vec S_Vec P_Vec P_GS M_Geom S_Geom P_Geom P_Centers
  M_GeomN S_GeomN P_Flat P_Svol P_GeomN P_Simplex Ex_Mesh Ex_Geom Ex_GeomN P_Normals T_Normals T_Centers.
Local Open Scope R_scope.

Lemma side_length m cs face x (l : bool) : tables m cs -> (1 <= m_dim m)%nat -> side_center (nth (m_dim m - 1) cs []) face x l -> length x = m_dim m.
Proof.
  intros T HD Hs. destruct (side_center_cell _ _ _ _ Hs) as (i & _ & V). apply vat_ok in V.
  apply (at_length m cs (m_dim m) i x T HD). unfold at_.
  destruct (nth_error cs (m_dim m - 1)) as [tab|] eqn:E.
  - rewrite (nth_error_nth _ _ [] E) in V. exact V.
  - apply nth_error_None in E. rewrite nth_overflow in V by assumption. destruct (N.to_nat i); discriminate.
Qed.

(** C70. Faces of a mesh of any dimension with given centre tables: computeFaceNormals always succeeds. The
    normal of a face whose frame, with the centre of the deciding cell, is in general position: a unit vector
    orthogonal to the flat of the frame. It points towards the left cell; if that is missing, away from the
    right one (the opposite of what planar and spatial meshes get, see C44). *)
Theorem C70_normals : forall m cs, geo_mesh m -> no_empty m -> tables m cs ->
  (forall face, In face (m_faces m) -> exists x l, side_center (nth (m_dim m - 1) cs []) face x l) ->
  exists ns, computeNormalsN (K := numR) m cs = Ok ns /\ length ns = length (m_faces m) /\
  forall f face x (l : bool) ps n, nth_error (m_faces m) (N.to_nat f) = Some face ->
    side_center (nth (m_dim m - 1) cs []) face x l -> frame m cs (m_dim m - 1) f ps ->
    aff_indep (m_dim m) (ps ++ [x]) -> nth_error ns (N.to_nat f) = Some n ->
    length n = m_dim m /\ sprod n n = 1 /\
    (forall q q', on_flat (m_dim m) ps q -> on_flat (m_dim m) ps q' -> sprod n q = sprod n q') /\
    (forall q, on_flat (m_dim m) ps q -> if l then sprod n q < sprod n x else sprod n x < sprod n q).
Proof.
  intros m cs G HN T Hside. pose proof (wf_dim _ (geo_wf _ G)) as HD. unfold computeNormalsN.
  destruct (table_ok (normalN (K := numR) m cs)
    (fun f n => forall face x (l : bool) ps, nth_error (m_faces m) (N.to_nat f) = Some face ->
      side_center (nth (m_dim m - 1) cs []) face x l -> frame m cs (m_dim m - 1) f ps -> aff_indep (m_dim m) (ps ++ [x]) ->
      exists q, foot (m_dim m) ps x q /\ dist x q <> 0 /\
       n = vscale (K := numR) (vscale (K := numR) (diff x q) (/ dist x q)) (if l then 1 else -1)) (length (m_faces m)))
    as (ns & E & L & H & _).
  { intros f Hf. destruct (vat_lt (m_faces m) f Hf) as [face Hface]. apply vat_ok in Hface.
    destruct (Hside face (nth_error_In _ _ Hface)) as (x & l & Hs).
    assert (Hn : n_elems m (m_dim m - 1) = length (m_faces m)).
    { unfold n_elems. destruct (Nat.eqb_spec (m_dim m - 1) 0); [lia|]. destruct (Nat.eqb_spec (m_dim m - 1) (m_dim m)); [lia|].
      rewrite Nat.eqb_refl. reflexivity. }
    destruct (frame_total m cs G HN T (m_dim m - 1) f ltac:(lia) ltac:(rewrite Hn; exact Hf)) as (ps & Hps).
    destruct (side_center_cell _ _ _ _ Hs) as (i & S1 & V1).
    destruct (normalN_ok m cs f face x l i ps G T HD Hface S1 V1 (side_length _ _ _ _ _ T ltac:(lia) Hs) Hps) as (n & En & Hn').
    exists n. split; [exact En|]. intros face' x' l' ps' Hf' Hs' Hps' HI.
    assert (face' = face) by congruence. subst face'. destruct (side_center_cell _ _ _ _ Hs') as (i' & S2 & V2).
    assert (l' = l) by congruence. subst l'. assert (i' = i) by congruence. subst i'.
    assert (x' = x) by (assert (Q : Ok x' = Ok x) by congruence; injection Q; auto). subst x'.
    rewrite (frame_det _ _ _ _ _ _ Hps' Hps) in *. apply Hn'. assumption. }
  exists ns. split; [exact E|]. split; [exact L|].
  intros f face x l ps n Hf Hs Hps HI Hn.
  destruct (H f n Hn face x l ps Hf Hs Hps HI) as (q & Hq & Hd & ->).
  pose proof (side_length _ _ _ _ _ T ltac:(lia) Hs) as Lx. destruct (frame_len _ _ _ _ _ G T Hps) as [HL _].
  pose proof (flat_length _ _ _ (proj1 Hq)) as Lq.
  set (s := if l then 1 else -1).
  assert (Sg : forall p, sprod (vscale (K := numR) (vscale (K := numR) (diff x q) (/ dist x q)) s) p = s * / dist x q * sprod (diff x q) p).
  { intros p. rewrite !sprod_vscale_l. ring. }
  assert (Dp : 0 < dist x q) by (pose proof (sqrt_pos (sprod (diff x q) (diff x q))) as P; unfold dist in *; lra).
  assert (Dq : sprod (diff x q) (diff x q) = dist x q * dist x q) by (unfold dist; rewrite sqrt_sqrt by apply sprod_nonneg; reflexivity).
  assert (Ip : 0 < / dist x q) by (apply Rinv_0_lt_compat; assumption).
  assert (Fl : forall q', on_flat (m_dim m) ps q' -> sprod (diff x q) q' = sprod (diff x q) q).
  { intros q' Hq'. pose proof (foot_all _ _ _ _ _ HL Lx Hq Hq') as Q. rewrite sprod_diff_r in Q by (rewrite (flat_length _ _ _ Hq'); congruence). lra. }
  splits.
  - rewrite !vscale_length, diff_length; congruence.
  - rewrite Sg, sprod_comm, Sg, Dq. unfold s. destruct l; field; assumption.
  - intros a b Ha Hb. rewrite !Sg, (Fl a Ha), (Fl b Hb). reflexivity.
  - intros a Ha. rewrite !Sg, (Fl a Ha).
    assert (P : sprod (diff x q) q < sprod (diff x q) x).
    { pose proof (Rmult_lt_0_compat _ _ Dp Dp) as P. rewrite <- Dq, sprod_diff_r in P by congruence. lra. }
    unfold s. destruct l; nra.
Qed.
Print Assumptions C70_normals.

(** C70. A simplex as face of a simplex, computed with the centres of computeCenters: the normal is orthogonal to
    the face and points to the side of the remaining vertex of the left cell (or away from that of the right). *)
Theorem C70_simplex : forall m cs f face x (l : bool) cell v ws, geo_mesh m -> no_empty m -> computeCenters (K := numR) false m = Ok cs ->
  (forall face, In face (m_faces m) -> exists x l, side_center (nth (m_dim m - 1) cs []) face x l) ->
  nth_error (m_faces m) (N.to_nat f) = Some face -> side_center (nth (m_dim m - 1) cs []) face x l ->
  cell = (if l then cellLeft (bc (f_conn face)) else cellRight (bc (f_conn face))) ->
  simplex m (m_dim m) cell (v :: ws) -> simplex m (m_dim m - 1) f ws ->
  (forall p, In p (v :: ws) -> length p = m_dim m) -> aff_indep (m_dim m) (v :: ws) ->
  exists ns n, computeNormalsN (K := numR) m cs = Ok ns /\ nth_error ns (N.to_nat f) = Some n /\
    length n = m_dim m /\ sprod n n = 1 /\
    (forall w w', In w ws -> In w' ws -> sprod n w = sprod n w') /\
    (forall w, In w ws -> if l then sprod n w < sprod n v else sprod n v < sprod n w).
Proof.
  intros m cs f face x l cell v ws G HN Ec Hside Hf Hs Hcell Sc Sf HL HI.
  pose proof (wf_dim _ (geo_wf _ G)) as HD.
  destruct (C46_centers m G HN) as (cs0 & E0 & CS & _).
  assert (cs0 = cs) by (pose proof (eq_trans (eq_sym E0) Ec) as Q; injection Q; auto). subst cs0.
  pose proof (centers_tables _ _ CS) as T. destruct (measures_ok m cs G HN T) as (ms & _ & MS).
  assert (HL' : Forall (fun w : point => length w = m_dim m) (v :: ws)) by (apply Forall_forall; exact HL).
  pose proof HL' as HL2. apply Forall_cons_iff in HL2 as [Lv Lw].
  destruct (simplex_good m cs ms G HN CS MS (m_dim m) cell (v :: ws) ltac:(lia) Sc HL' HI) as (Gm & _ & _).
  pose proof (aff_indep_tl _ _ _ HI) as HIw. pose proof (aff_indep_off _ _ _ HI) as Off.
  destruct (simplex_good m cs ms G HN CS MS (m_dim m - 1) f ws ltac:(lia) Sf Lw HIw) as (_ & Gf & _).
  destruct (C70_normals m cs G HN T Hside) as (ns & E & L & H).
  assert (Hlt : (N.to_nat f < length (m_faces m))%nat) by (apply nth_error_Some; congruence).
  destruct (nth_error ns (N.to_nat f)) as [n|] eqn:En; [|apply nth_error_None in En; lia].
  assert (Hnn : n_elems m (m_dim m - 1) = length (m_faces m)).
  { unfold n_elems. destruct (Nat.eqb_spec (m_dim m - 1) 0); [lia|]. destruct (Nat.eqb_spec (m_dim m - 1) (m_dim m)); [lia|].
    rewrite Nat.eqb_refl. reflexivity. }
  destruct (frame_total m cs G HN T (m_dim m - 1) f ltac:(lia) ltac:(rewrite Hnn; lia)) as (ps & Hps).
  destruct (Gf ps Hps) as (Ips & F1 & F2).
  assert (Hx : at_ cs (m_dim m) cell = Some x).
  { unfold at_. destruct (nth_error cs (m_dim m - 1)) as [tab|] eqn:Et.
    - rewrite (nth_error_nth _ _ [] Et) in Hs. unfold side_center in Hs. subst cell. destruct l; apply Hs.
    - apply nth_error_None in Et. pose proof (cs_len _ _ CS). ll. }
  pose proof (Gm x Hx) as Hm. assert (Lx : length x = m_dim m) by apply Hm.
  assert (Nx : ~ on_flat (m_dim m) ps x).
  { intros Hbad. apply (center_off _ v x ws Lv Lw Hm Off). eapply flat_trans; [|exact Hbad]. exact F1. }
  assert (HIx : aff_indep (m_dim m) (ps ++ [x])).
  { eapply aff_indep_perm; [apply Permutation_cons_append|]. apply aff_indep_cons; assumption. }
  destruct (H f face x l ps n Hf Hs Hps HIx En) as (Ln & Hu & Hc & Hd).
  exists ns, n. splits; try assumption.
  - intros w w' Hw Hw'. apply Hc; apply F2; assumption.
  - intros w Hw. specialize (Hd w (F2 w Hw)).
    assert (Q : INR (length (v :: ws)) * (sprod n x - sprod n w) = sprod n v - sprod n w).
    { assert (Hx2 : is_comb (m_dim m) (mw (/ INR (length (v :: ws))) (v :: ws)) x).
      { split; [assumption|]. intros i Hi. rewrite (proj2 Hm i Hi).
        pose proof (mw_W (/ INR (length (v :: ws))) (v :: ws) (fun p => nth i p 0)) as Q. unfold W in Q. rewrite Q. unfold Rdiv. ring. }
      rewrite (sprod_comm n x), (comb_sprod _ _ _ n Hx2 Ln), mw_W.
      assert (N0 : INR (length (v :: ws)) <> 0) by (apply not_0_INR; simpl; lia).
      assert (Q : Rsum (map (fun p => sprod p n) (v :: ws)) = sprod n v + INR (length ws) * sprod n w).
      { cbn [map Rsum]. rewrite (sprod_comm v n). f_equal. rewrite <- (Rsum_const (sprod n w) ws). apply Rsum_ext.
        intros u Hu'. rewrite sprod_comm. apply Hc; apply F2; assumption. }
      rewrite Q. cbn [length] in *. rewrite S_INR in *. field. assumption. }
    assert (N0 : 0 < INR (length (v :: ws))) by (apply lt_0_INR; simpl; lia).
    destruct l; nra.
Qed.
Print Assumptions C70_simplex.

(** C71. computeMeasures with given centre tables always succeeds: one table per dimension, one entry per element.
    An edge gets its length; an element of dimension k the sum, over its boundary elements, of (height of its
    centre over the boundary element) * (measure of the boundary element) / k. *)
Theorem C71_measures : forall m cs, geo_mesh m -> no_empty m -> tables m cs ->
  exists ms, computeMeasuresN (K := numR) m cs = Ok ms /\ length ms = m_dim m /\
  (forall k tab, nth_error ms k = Some tab -> length tab = n_elems m (S k)) /\
  (forall e a b V, edge_points m e a b -> at_ ms 1 e = Some V -> V = dist a b) /\
  forall k i js x V, (2 <= k <= m_dim m)%nat -> children m k i js -> at_ cs k i = Some x -> at_ ms k i = Some V ->
    (forall j, In j js -> exists ps, frame m cs (k - 1) j ps /\ aff_indep (m_dim m) ps) ->
    exists hs mus, Forall2 (fun j h => exists ps, frame m cs (k - 1) j ps /\ height (m_dim m) ps x h) js hs /\
      Forall2 (fun j mu => at_ ms (k - 1) j = Some mu) js mus /\
      V = Rsum (map (fun p => fst p * snd p / INR k) (combine hs mus)).
Proof.
  intros m cs G HN T. destruct (measures_ok m cs G HN T) as (ms & E & (M1 & M2 & M3 & M4)).
  exists ms. splits; try assumption. intros k i js x V Hk Hc Hx HV Hfr.
  destruct (M4 k i js x V Hk Hc Hx HV) as (hs & mus & H1 & H2 & ->). exists hs, mus. split; [|split; [assumption|]].
  - clear -H1 Hfr. induction H1 as [|j h js hs Hj H1 IH]; constructor.
    + destruct (Hfr j (or_introl eq_refl)) as (ps & Hp & HI). exists ps. split; [assumption|]. apply Hj; assumption.
    + apply IH. intros. apply Hfr. right. assumption.
  - unfold psum. unfold Rdiv. rewrite Rmult_comm, <- Rsum_scale. apply Rsum_ext. intros. ring.
Qed.
Print Assumptions C71_measures.
(** C71. The height in C71_measures is unique, and it is the distance from the flat: no point of the flat is nearer
    and one point is that near. *)
Theorem C71_height : forall d ps x h, Forall (fun p => length p = d) ps -> length x = d -> height d ps x h ->
  (forall h', height d ps x h' -> h' = h) /\ (forall q, on_flat d ps q -> h <= dist x q) /\ (exists q, on_flat d ps q /\ dist x q = h).
Proof.
  intros d ps x h HF Lx H. splits.
  - intros h' H'. eapply height_unique; eassumption.
  - intros q Hq. eapply height_min; eassumption.
  - destruct H as (q & [Hq _] & ->). eauto.
Qed.
Print Assumptions C71_height.

(** C72. With the centres of computeCenters, the measure of an element that is a simplex with vertices in general
    position is the volume of that simplex, its centre the mean of its vertices. *)
Theorem C72_simplex : forall m cs ms k i vs, geo_mesh m -> no_empty m ->
  computeCenters (K := numR) false m = Ok cs -> computeMeasuresN (K := numR) m cs = Ok ms ->
  (1 <= k <= m_dim m)%nat -> (i < N.of_nat (n_elems m k))%N ->
  simplex m k i vs -> (forall v, In v vs -> length v = m_dim m) -> aff_indep (m_dim m) vs ->
  exists c V, at_ cs k i = Some c /\ is_mean (m_dim m) vs c /\ at_ ms k i = Some V /\ svol (m_dim m) vs V /\ 0 < V.
Proof.
  intros m cs ms k i vs G HN Ec Em Hk Hi Sx HL HI.
  destruct (C46_centers m G HN) as (cs0 & E0 & CS & _).
  assert (cs0 = cs) by (pose proof (eq_trans (eq_sym E0) Ec) as Q; injection Q; auto). subst cs0.
  pose proof (centers_tables _ _ CS) as T. destruct (measures_ok m cs G HN T) as (ms0 & E1 & MS).
  assert (ms0 = ms) by (pose proof (eq_trans (eq_sym E1) Em) as Q; injection Q; auto). subst ms0.
  assert (HL' : Forall (fun w : point => length w = m_dim m) vs) by (apply Forall_forall; exact HL).
  destruct (simplex_good m cs ms G HN CS MS k i vs ltac:(lia) Sx HL' HI) as (Gm & _ & Gv).
  destruct (tab_at m cs k i T ltac:(lia) Hi) as (c & Hc). exists c.
  assert (HV : exists V, at_ ms k i = Some V).
  { destruct MS as (M1 & M2 & _). unfold at_. destruct (nth_error ms (k - 1)) as [tab|] eqn:Et.
    - pose proof (M2 _ _ Et) as Lt. replace (S (k - 1)) with k in Lt by lia.
      destruct (nth_error tab (N.to_nat i)) eqn:Ei; [eauto|]. apply nth_error_None in Ei. ll.
    - apply nth_error_None in Et. ll. }
  destruct HV as (V & HV). exists V. splits; auto.
  destruct (svol_exists (m_dim m) vs ltac:(pose proof (simplex_len _ _ _ _ Sx); destruct vs; discriminate) HL' HI) as (V0 & S0 & P0).
  rewrite (svol_unique _ _ _ (Gv V HV) _ S0). exact P0.
Qed.
Print Assumptions C72_simplex.

Lemma svol_three d a b c : length a = d -> length b = d -> length c = d -> a <> b -> svol d [a; b; c] (tri_area a b c).
Proof.
  intros La Lb Lc Hab.
  assert (Hf : forall x, length x = d -> foot d [a] x a).
  { intros x Lx. split; [apply flat_in; [left; reflexivity|assumption]|]. intros p p' [<-|[]] [<-|[]]. rewrite sprod_diff_r by reflexivity. ring. }
  assert (Hne : sprod (diff b a) (diff b a) <> 0) by (intros Z; apply Hab; symmetry; apply diff_zero; [congruence|assumption]).
  pose proof (height_more d [a] b c a a ltac:(constructor; [assumption|constructor]) Lb Lc (Hf b Lb) (Hf c Lc) Hne) as H. cbn [app] in H.
  pose proof (sv_cone d [a; b] _ c _ (svol_two d a b La Lb) Lc H) as Sv. cbn [app length] in Sv.
  replace (tri_area a b c) with (dist a b * sqrt (sprod (diff c a) (diff c a) - sprod (diff b a) (diff c a) * sprod (diff b a) (diff c a) / sprod (diff b a) (diff b a)) / INR 2); [exact Sv|].
  unfold tri_area. rewrite (dist_sym a b). unfold dist. rewrite <- sqrt_mult_alt by apply sprod_nonneg. simpl INR.
  replace (1 + 1) with 2 by ring. f_equal. f_equal. field. assumption.
Qed.
(** C72. The volume of the specification is well defined: it exists for vertices in general position, is unique and
    independent of their order; for two vertices it is their distance, for three the area of the triangle. *)
Theorem C72_volume : forall d ps, ps <> [] -> (forall p, In p ps -> length p = d) -> aff_indep d ps ->
  exists V, svol d ps V /\ 0 < V /\ (forall ps' V', Permutation ps ps' -> svol d ps' V' -> V' = V) /\
    (forall a b, ps = [a; b] -> V = dist a b) /\ (forall a b c, ps = [a; b; c] -> V = tri_area a b c).
Proof.
  intros d ps Hne HL HI. assert (HF : Forall (fun w : point => length w = d) ps) by (apply Forall_forall; exact HL).
  destruct (svol_exists d ps Hne HF HI) as (V & Sv & P). exists V. splits; try assumption.
  - intros ps' V' HP S'. eapply svol_unique; [exact S'|]. eapply svol_perm; [reflexivity|exact HP|assumption|assumption].
  - intros a b ->. eapply svol_unique; [exact Sv|]. apply svol_two; apply HL; simpl; auto.
  - intros a b c ->. eapply svol_unique; [exact Sv|]. apply svol_three; try (apply HL; simpl; auto).
    intros ->. pose proof (aff_indep_nodup _ _ HF HI) as ND. inversion ND as [|? ? Hn _]. apply Hn. left. reflexivity.
Qed.
Print Assumptions C72_volume.

(** Non-vacuity: the unit simplex in four dimensions. All its measures are defined, its volume is 1/24, and the normal
    of the face opposite to the last vertex is the last unit vector. *)
Example C70_C72_instance : geo_mesh simplexR /\ no_empty simplexR /\
  exists cs ms ns, computeCenters (K := numR) false simplexR = Ok cs /\ tables simplexR cs /\ computeMeasuresN (K := numR) simplexR cs = Ok ms /\
    at_ ms 4 0 = Some (1 / 24) /\ computeNormalsN (K := numR) simplexR cs = Ok ns /\ nth_error ns 0 = Some [0; 0; 0; 1].
Proof.
  destruct simplexR_geo as [G HN]. split; [assumption|]. split; [assumption|].
  destruct (C46_centers simplexR G HN) as (cs & Ec & CS & _). pose proof (centers_tables _ _ CS) as T.
  destruct (C71_measures simplexR cs G HN T) as (ms & Em & _).
  destruct (C72_simplex simplexR cs ms 4 0 _ G HN Ec Em ltac:(simpl; lia) ltac:(vm_compute; reflexivity) sx01234 len4 indep4)
    as (c & V & Hc & Hm & HV & Sv & _).
  assert (Hside : forall face, In face (m_faces simplexR) -> side_center (nth (m_dim simplexR - 1) cs []) face c true).
  { assert (Q : forallb (fun f => (cellLeft (bc (f_conn f)) =? 0)%N) (m_faces simplexR) = true) by (vm_compute; reflexivity).
    intros face H. rewrite forallb_forall in Q. specialize (Q face H). apply N.eqb_eq in Q.
    unfold side_center. rewrite Q. split; [reflexivity|]. unfold at_ in Hc. change (4 - 1)%nat with (m_dim simplexR - 1)%nat in Hc.
    destruct (nth_error cs (m_dim simplexR - 1)) as [tab|] eqn:Et; [|discriminate]. rewrite (nth_error_nth _ _ [] Et). exact Hc. }
  assert (P : Permutation [pt4 0; pt4 1; pt4 2; pt4 3; pt4 4] (pt4 4 :: [pt4 0; pt4 1; pt4 2; pt4 3])).
  { symmetry. apply (Permutation_middle [pt4 0; pt4 1; pt4 2; pt4 3] []). }
  assert (Sc : simplex simplexR 4 0 (pt4 4 :: [pt4 0; pt4 1; pt4 2; pt4 3])).
  { pose proof sx01234 as Sx. inversion Sx as [|k i js vs opp H1 H2 H3 H4 H5]; subst. eapply sx_up; [exact H1|exact H2| | |].
    - etransitivity; [exact H3|exact P].
    - reflexivity.
    - eapply Forall2_mono; [|exact H5]. intros j v (ws & Pw & Sw). exists ws. split; [|assumption].
      etransitivity; [symmetry; exact P|exact Pw]. }
  assert (Hf : exists face, nth_error (m_faces simplexR) (N.to_nat 0) = Some face /\ cellLeft (bc (f_conn face)) = 0%N) by (eexists; split; reflexivity).
  destruct Hf as (face & Hf & Hl).
  assert (L' : forall p, In p (pt4 4 :: [pt4 0; pt4 1; pt4 2; pt4 3]) -> length p = 4%nat).
  { intros p Hp. apply len4. eapply Permutation_in; [symmetry; exact P|assumption]. }
  destruct (C70_simplex simplexR cs 0 face c true 0 (pt4 4) [pt4 0; pt4 1; pt4 2; pt4 3] G HN Ec
    (fun f Hf => ex_intro _ c (ex_intro _ true (Hside f Hf))) Hf (Hside face (nth_error_In _ _ Hf)) (eq_sym Hl) Sc sx0123 L' (aff_indep_perm _ _ _ P indep4))
    as (ns & n & En & Hn & Ln & Hu & Hw & Hd).
  exists cs, ms, ns. splits; try assumption.
  - rewrite HV. f_equal. apply (svol_unique _ _ _ Sv). exact svol4.
  - change (nth_error ns (N.to_nat 0) = Some [0; 0; 0; 1]). rewrite Hn. f_equal.
    destruct n as [|x [|y [|z [|t [|]]]]]; try discriminate.
    pose proof (Hw (pt4 0) (pt4 1) ltac:(simpl; auto) ltac:(simpl; auto)) as W1.
    pose proof (Hw (pt4 0) (pt4 2) ltac:(simpl; auto) ltac:(simpl; auto)) as W2.
    pose proof (Hw (pt4 0) (pt4 3) ltac:(simpl; auto 6) ltac:(simpl; auto 6)) as W3.
    pose proof (Hd (pt4 0) ltac:(simpl; auto)) as W4. clear -W1 W2 W3 W4 Hu. cbn in W1, W2, W3, W4, Hu.
    assert (x = 0) by lra. assert (y = 0) by lra. assert (z = 0) by lra. subst x y z.
    assert (t = 1) by nra. subst t. reflexivity.
Qed.

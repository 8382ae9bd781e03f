(** Theorems about the measures of spatial meshes: C49. Exact real arithmetic. *)
From Coq Require Import Reals Lra Permutation.
From Verif Require Import P_Base M_Conn M_Index M_Mesh M_Apply S_Mesh P_Apply M_Vec S_Vec P_Vec P_GS3 M_Geom S_Geom P_Geom P_Tri P_Normals S_Polygon P_Polygon P_Volume Ex_Mesh Ex_Geom T_Normals.
Local Open Scope R_scope.

Lemma edges_of (m : Mesh point) js : geo_mesh m -> (forall e, In e js -> (e < N.of_nat (n_elems m 1))%N) ->
  exists es, Forall2 (fun f e => edge_points m f (fst e) (snd e)) js es.
Proof.
  intros G. induction js as [|f fs IH]; intros H; [exists []; constructor|].
  destruct IH as (es & He); [intros; apply H; right; assumption|].
  destruct (edge_points_total m f G) as (a & b & Hab); [apply H; left; reflexivity|].
  exists ((a, b) :: es). constructor; assumption.
Qed.
Lemma face_subs_lt (m : Mesh point) f face : geo_mesh m -> m_dim m = 3%nat -> nth_error (m_faces m) (N.to_nat f) = Some face ->
  forall e, In e (f_subs face) -> (e < N.of_nat (n_elems m 1))%N.
Proof.
  intros G D Hf e He.
  assert (Sb : subs m 2 f = Ok (f_subs face)).
  { unfold subs. nr. rewrite D. cbn [Nat.sub Nat.eqb]. apply vat_ok in Hf. nr. rewrite Hf. reflexivity. }
  assert (Hk : (1 <= 2 < m_dim m)%nat) by (nr; lia).
  exact (proj1 (proj2 (wf_subs _ (geo_wf _ G) 2%nat f (f_subs face) Hk Sb)) e He).
Qed.
Lemma face_measure_ok (m : Mesh point) ls fc f face c es : geo_mesh m -> m_dim m = 3%nat ->
  nth_error (m_faces m) (N.to_nat f) = Some face -> nth_error fc (N.to_nat f) = Some c -> length c = 3%nat ->
  (forall e a b, edge_points m e a b -> a <> b /\ nth_error ls (N.to_nat e) = Some (dist a b)) ->
  Forall2 (fun f e => edge_points m f (fst e) (snd e)) (f_subs face) es ->
  face_measure (K := numR) m ls fc f = Ok (Rsum (map (fun e => tri_area c (fst e) (snd e)) es)).
Proof.
  intros G D Hf Hc Lc Hls HF. unfold face_measure. apply vat_ok in Hf. apply vidx_ok in Hc. nr. rewrite Hf. cbn [bind]. nr. rewrite Hc. cbn [bind].
  assert (Q : forall js es, Forall2 (fun f e => edge_points m f (fst e) (snd e)) js es ->
    forall s : R, foldM (face_step (K := numR) m ls c) js s = Ok (s + Rsum (map (fun e => tri_area c (fst e) (snd e)) es))).
  { clear HF es. intros js es HF. induction HF as [|j [a b] js es Hab HF IH]; intros s; [cbn [foldM map Rsum]; f_equal; ring|].
    cbn [foldM]. cbn [fst snd] in Hab. destruct (edge_points_length _ _ _ _ G Hab) as [La Lb]. rewrite D in La, Lb.
    destruct (Hls j a b Hab) as [Hne Hl]. destruct (gs2_height a b c ltac:(congruence) ltac:(congruence) Hne) as (gs & n0 & n1 & Eg & Ea).
    assert (St : face_step (K := numR) m ls c s j = Ok (s + tri_area c a b)).
    { unfold face_step. apply ends_edge in Hab. nr. rewrite Hab. cbn [bind fst snd]. nr. rewrite Eg. cbn [bind snd].
      change (vidx [n0; n1] 1) with (Ok n1). cbn [bind]. apply vat_ok in Hl. nr. rewrite Hl. cbn [bind]. rewrite <- Ea. reflexivity. }
    nr. rewrite St. cbn [bind]. etransitivity; [apply IH|]. f_equal. cbn [map Rsum fst snd]. ring. }
  etransitivity; [apply (Q _ _ HF)|]. f_equal. cbn [nzero numR]. ring.
Qed.

(** One pyramid: the face f with area F seen from x: the distance of x from the plane of the first edge and the face centre. *)
Definition pyramid (m : Mesh point) (fc : list point) (Fs : list R) (x : point) (f : N) (d : R) : Prop :=
  exists face e0 es a b c h F, nth_error (m_faces m) (N.to_nat f) = Some face /\ f_subs face = e0 :: es /\ edge_points m e0 a b /\
    nth_error fc (N.to_nat f) = Some c /\ plane_dist x c a b h /\ nth_error Fs (N.to_nat f) = Some F /\ d = h * F / 3.

Lemma plane_dist_unique x c a b h h' : length x = 3%nat -> length c = 3%nat -> length a = 3%nat -> length b = 3%nat ->
  tri_area c a b <> 0 -> plane_dist x c a b h -> plane_dist x c a b h' -> h = h'.
Proof.
  intros Lx Lc La Lb HT (n & Ln & Hu & Ha & Hb & ->) (n' & Ln' & Hu' & Ha' & Hb' & ->).
  pose proof (tri_height x c a b n Lx Lc La Lb Ln Hu Ha Hb) as Q. pose proof (tri_height x c a b n' Lx Lc La Lb Ln' Hu' Ha' Hb') as Q'.
  rewrite Q in Q'. apply Rmult_eq_reg_l in Q'; [assumption|]. lra.
Qed.
Lemma cell_term_ok (m : Mesh point) fc Fs x f d : geo_mesh m -> m_dim m = 3%nat -> length x = 3%nat ->
  (forall p, In p fc -> length p = 3%nat) ->
  (forall f face e0 es a b c, nth_error (m_faces m) (N.to_nat f) = Some face -> f_subs face = e0 :: es -> edge_points m e0 a b ->
     nth_error fc (N.to_nat f) = Some c -> tri_area c a b <> 0) ->
  pyramid m fc Fs x f d -> cell_term (K := numR) m fc Fs x f = Ok d.
Proof.
  intros G D Lx Lfc HT (face & e0 & es & a & b & c & h & F & Hf & Hs & Hab & Hc & Hh & HF & ->).
  pose proof (HT _ _ _ _ _ _ _ Hf Hs Hab Hc) as Ht. destruct (edge_points_length _ _ _ _ G Hab) as [La Lb]. rewrite D in La, Lb.
  assert (Lc : length c = 3%nat) by (apply Lfc; eapply nth_error_In; exact Hc).
  destruct (gs3_height a b c x La Lb Lc Lx Ht) as (gs & n0 & n1 & h' & Eg & Hh').
  rewrite (plane_dist_unique x c a b h h' Lx Lc La Lb Ht Hh Hh').
  unfold cell_term. apply vat_ok in Hf, Hc, HF. nr. rewrite Hf. cbn [bind]. rewrite Hs.
  change (vidx (e0 :: es) 0) with (if (0 <? N.of_nat (S (length es)))%N then Ok e0 else UB).
  destruct (N.ltb_spec 0 (N.of_nat (S (length es)))); [|lia]. cbn [bind].
  apply ends_edge in Hab. nr. rewrite Hab. cbn [bind]. nr. rewrite Hc. cbn [bind fst snd]. nr. rewrite Eg. cbn [bind snd].
  change (vidx [n0; n1; h'] 2) with (Ok h'). cbn [bind]. nr. rewrite HF. cbn [bind]. f_equal.
  unfold three, two. cbn [ndiv nmul nadd none_ numR]. nr. replace (1 + 1 + 1) with 3 by ring. reflexivity.
Qed.
Lemma pyramid_total (m : Mesh point) fc Fs x f : geo_mesh m -> no_empty m -> m_dim m = 3%nat -> length x = 3%nat ->
  (forall p, In p fc -> length p = 3%nat) -> length fc = length (m_faces m) -> length Fs = length (m_faces m) ->
  (forall f face e0 es a b c, nth_error (m_faces m) (N.to_nat f) = Some face -> f_subs face = e0 :: es -> edge_points m e0 a b ->
     nth_error fc (N.to_nat f) = Some c -> tri_area c a b <> 0) ->
  (f < N.of_nat (length (m_faces m)))%N -> exists d, pyramid m fc Fs x f d.
Proof.
  intros G HN D Lx Lfc L1 L2 HT Hlt. destruct (vat_lt (m_faces m) f Hlt) as [face Hf]. apply vat_ok in Hf.
  destruct (nth_error fc (N.to_nat f)) as [c|] eqn:Hc; [|apply nth_error_None in Hc; nr; lia].
  destruct (nth_error Fs (N.to_nat f)) as [F|] eqn:HF; [|apply nth_error_None in HF; nr; lia].
  assert (Hne : exists e0 es, f_subs face = e0 :: es).
  { destruct (f_subs face) as [|e0 es] eqn:Ef; [|eauto]. exfalso. apply (HN 2%nat f []); [lia| |reflexivity].
    unfold subs. rewrite D. simpl. apply vat_ok in Hf. rewrite Hf. simpl. rewrite Ef. reflexivity. }
  destruct Hne as (e0 & es & Hs).
  destruct (edge_points_total m e0 G) as (a & b & Hab).
  { apply (face_subs_lt m f face G D Hf). rewrite Hs. left. reflexivity. }
  destruct (edge_points_length _ _ _ _ G Hab) as [La Lb]. rewrite D in La, Lb.
  assert (Lc : length c = 3%nat) by (apply Lfc; eapply nth_error_In; exact Hc).
  destruct (gs3_height a b c x La Lb Lc Lx (HT _ _ _ _ _ _ _ Hf Hs Hab Hc)) as (gs & n0 & n1 & h & _ & Hh).
  exists (h * F / 3), face, e0, es, a, b, c, h, F. splits; assumption || reflexivity.
Qed.

(** C49. computeMeasures of a spatial mesh with cell centres [cc] and face centres [fc] succeeds if no edge is degenerate and no
    face centre is collinear with the first edge of the face. An edge gets its length, a face the sum of the areas of the
    triangles (face centre, edge), a cell the sum over its faces of distance * area / 3. *)
Theorem C49_measures3 : forall m cc fc, geo_mesh m -> no_empty m -> m_dim m = 3%nat ->
  (forall p, In p cc -> length p = 3%nat) -> (forall p, In p fc -> length p = 3%nat) ->
  length cc = length (m_cells m) -> length fc = length (m_faces m) ->
  (forall e a b, edge_points m e a b -> a <> b) ->
  (forall f face e0 es a b c, nth_error (m_faces m) (N.to_nat f) = Some face -> f_subs face = e0 :: es -> edge_points m e0 a b ->
     nth_error fc (N.to_nat f) = Some c -> tri_area c a b <> 0) ->
  exists ls Fs Vs, computeMeasures3 (K := numR) m cc fc = Ok (ls, Fs, Vs) /\
  length ls = n_elems m 1 /\ length Fs = length (m_faces m) /\ length Vs = length (m_cells m) /\
  (forall e a b l, edge_points m e a b -> nth_error ls (N.to_nat e) = Some l -> l = dist a b) /\
  (forall f face c es F, nth_error (m_faces m) (N.to_nat f) = Some face -> nth_error fc (N.to_nat f) = Some c ->
     Forall2 (fun f e => edge_points m f (fst e) (snd e)) (f_subs face) es -> nth_error Fs (N.to_nat f) = Some F ->
     F = Rsum (map (fun e => tri_area c (fst e) (snd e)) es)) /\
  (forall i x fs ds V, nth_error cc (N.to_nat i) = Some x -> ring m i fs -> Forall2 (pyramid m fc Fs x) fs ds ->
     nth_error Vs (N.to_nat i) = Some V -> V = Rsum ds).
Proof.
  intros m cc fc G HN D Lcc Lfc L1 L2 Hne HT.
  destruct (table_ok (fun e => ab <- edge_pts (K := numR) m e ;; Ok (normEuclid (K := numR) (vsub (K := numR) (fst ab) (snd ab))))
    (fun e l => forall a b, edge_points m e a b -> l = dist a b) (n_elems m 1)) as (ls & E1 & Ll & H1 & _).
  { intros e He. destruct (edge_points_total m e G He) as (a & b & Hab). exists (dist a b). split.
    - apply ends_edge in Hab. nr. rewrite Hab. cbn [bind]. f_equal. apply norm_dist.
    - intros a' b' Hab'. destruct (edge_points_det _ _ _ _ _ _ Hab Hab') as [-> ->]. reflexivity. }
  assert (Hls : forall e a b, edge_points m e a b -> a <> b /\ nth_error ls (N.to_nat e) = Some (dist a b)).
  { intros e a b Hab. split; [apply (Hne e a b Hab)|].
    destruct (nth_error ls (N.to_nat e)) as [l|] eqn:El; [f_equal; apply (H1 e l El a b Hab)|].
    exfalso. apply nth_error_None in El. destruct Hab as (i & j & Hs & _). apply subs_lt in Hs; [|pose proof (wf_dim _ (geo_wf _ G)); lia]. nr; lia. }
  destruct (table_ok (face_measure (K := numR) m ls fc)
    (fun f F => forall face c es, nth_error (m_faces m) (N.to_nat f) = Some face -> nth_error fc (N.to_nat f) = Some c ->
     Forall2 (fun f e => edge_points m f (fst e) (snd e)) (f_subs face) es -> F = Rsum (map (fun e => tri_area c (fst e) (snd e)) es))
    (length (m_faces m))) as (Fs & E2 & LF & H2 & _).
  { intros f Hlt. destruct (vat_lt (m_faces m) f Hlt) as [face Hf]. apply vat_ok in Hf.
    destruct (nth_error fc (N.to_nat f)) as [c|] eqn:Hc; [|apply nth_error_None in Hc; nr; lia].
    assert (Lc : length c = 3%nat) by (apply Lfc; eapply nth_error_In; exact Hc).
    destruct (edges_of m (f_subs face) G (face_subs_lt m f face G D Hf)) as (es & HF).
    eexists. split; [apply (face_measure_ok m ls fc f face c es G D Hf Hc Lc Hls HF)|].
    intros face' c' es' Hf' Hc' HF'. assert (face' = face) by congruence. assert (c' = c) by congruence. subst.
    pose proof (face_measure_ok m ls fc f face c es G D Hf Hc Lc Hls HF) as Q1.
    pose proof (face_measure_ok m ls fc f face c es' G D Hf Hc Lc Hls HF') as Q2.
    pose proof (eq_trans (eq_sym Q1) Q2) as Q. injection Q. auto. }
  assert (HM : forall i x fs ds, nth_error cc (N.to_nat i) = Some x -> ring m i fs -> Forall2 (pyramid m fc Fs x) fs ds ->
    measure3 (K := numR) m cc fc Fs i = Ok (Rsum ds)).
  { intros i x fs ds Hx HR HF. assert (Lx : length x = 3%nat) by (apply Lcc; eapply nth_error_In; exact Hx).
    unfold measure3. apply vat_ok in Hx. nr. rewrite Hx. cbn [bind].
    assert (W : ring_walk m i (cell_term (K := numR) m fc Fs x) = Ok ds).
    { apply (ring_walk_mapM m i _ fs ds HR). eapply Forall2_mono; [|exact HF]. intros f d Hd. apply cell_term_ok; assumption. }
    refine (eq_trans (f_equal (fun o => bind o _) W) _). cbn [bind]. f_equal. apply fold_Rsum. }
  destruct (table_ok (measure3 (K := numR) m cc fc Fs)
    (fun i V => forall x fs ds, nth_error cc (N.to_nat i) = Some x -> ring m i fs -> Forall2 (pyramid m fc Fs x) fs ds -> V = Rsum ds)
    (length (m_cells m))) as (Vs & E3 & LV & H3 & _).
  { intros i Hi. destruct (wf_ring _ (geo_wf _ G) i Hi) as (fs & HR).
    destruct (nth_error cc (N.to_nat i)) as [x|] eqn:Hx; [|apply nth_error_None in Hx; nr; lia].
    assert (Lx : length x = 3%nat) by (apply Lcc; eapply nth_error_In; exact Hx).
    assert (HP : exists ds, Forall2 (pyramid m fc Fs x) fs ds).
    { assert (Hlt : forall f, In f fs -> (f < N.of_nat (length (m_faces m)))%N) by (intros f Hf; eapply ring_lt; eassumption).
      clear HR. induction fs as [|f fs IH]; [exists []; constructor|].
      destruct IH as (ds & Hds); [intros; apply Hlt; right; assumption|].
      destruct (pyramid_total m fc Fs x f G HN D Lx Lfc L2 LF HT (Hlt f (or_introl eq_refl))) as (d & Hd).
      exists (d :: ds). constructor; assumption. }
    destruct HP as (ds & HP). exists (Rsum ds). split; [apply (HM i x fs ds Hx HR HP)|].
    intros x' fs' ds' Hx' HR' HP'. assert (x' = x) by congruence. subst x'.
    pose proof (eq_trans (eq_sym (HM i x fs ds Hx HR HP)) (HM i x fs' ds' Hx HR' HP')) as Q. injection Q. auto. }
  exists ls, Fs, Vs. splits; try assumption.
  - unfold computeMeasures3, edge_lengths. nr. refine (eq_trans (f_equal (fun o => bind o _) E1) _). cbn [bind].
    refine (eq_trans (f_equal (fun o => bind o _) E2) _). cbn [bind]. refine (eq_trans (f_equal (fun o => bind o _) E3) _). reflexivity.
  - intros e a b l Hab Hl. apply (H1 e l Hl a b Hab).
  - intros f face c es F Hf Hc HF HF'. apply (H2 f F HF' face c es Hf Hc HF).
  - intros i x fs ds V Hx HR HP HV. apply (H3 i V HV x fs ds Hx HR HP).
Qed.
Print Assumptions C49_measures3.

(** * Polyhedra *)
Lemma path_edges_start l : forall p q, In q (removelast (p :: l)) -> exists e, In e (path_edges p l) /\ fst e = q.
Proof.
  induction l as [|r l IH]; intros p q H; [destruct H|].
  change (removelast (p :: r :: l)) with (p :: removelast (r :: l)) in H. destruct H as [<-|H].
  - exists (p, r). split; [left; reflexivity|reflexivity].
  - destruct (IH r q H) as (e & He & Eq). exists e. split; [right; exact He|exact Eq].
Qed.
Lemma cycle_start vs v : In v vs -> exists e, In e (cycle_edges vs) /\ fst e = v.
Proof.
  destruct vs as [|p r]; [intros []|]. intros H. apply path_edges_start.
  change (p :: r ++ [p]) with ((p :: r) ++ [p]). rewrite removelast_last. exact H.
Qed.
Lemma traces_in es ds e : traces es ds -> In e ds -> In e es \/ In (rev_edge e) es.
Proof.
  intros (ds' & HP & HF) H. apply (Permutation_in _ HP) in H. clear HP ds.
  induction HF as [|x y xs ys Hxy HF IH]; [destruct H|]. destruct H as [<-|H].
  - destruct Hxy as [-> | ->]; [left; left; reflexivity|right; left]. destruct x; reflexivity.
  - destruct (IH H); [left; right|right; right]; assumption.
Qed.
Lemma traces_out es ds e : traces es ds -> In e es -> In e ds \/ In (rev_edge e) ds.
Proof.
  intros (ds' & HP & HF) H. assert (Q : In e ds' \/ In (rev_edge e) ds').
  { clear HP. induction HF as [|x y xs ys Hxy HF IH]; [destruct H|]. destruct H as [<-|H].
    - destruct Hxy as [-> | ->]; [left; left; reflexivity|right; left; reflexivity].
    - destruct (IH H); [left; right|right; right]; assumption. }
  destruct Q as [Q|Q]; [left|right]; apply (Permutation_in _ (Permutation_sym HP) Q).
Qed.

Lemma face_poly_len m fc f p : geo_mesh m -> m_dim m = 3%nat -> face_poly m fc f p -> forall v, In v (snd p) -> length v = 3%nat.
Proof.
  intros G D (_ & _ & face & es & _ & HF & HT) v Hv. apply cycle_start in Hv as (e & He & <-).
  assert (Q : forall e, In e es -> length (fst e) = 3%nat /\ length (snd e) = 3%nat).
  { clear -HF G D. induction HF as [|x y xs ys Hxy HF IH]; [intros e []|]. intros e [<-|H]; [|auto].
    destruct (edge_points_length _ _ _ _ G Hxy) as [A B]. rewrite D in A, B. auto. }
  destruct (traces_in _ _ _ HT He) as [H|H]; apply Q in H; destruct e; simpl in *; tauto.
Qed.
Lemma pyramid_poly (m : Mesh point) fc Fs x f p d : geo_mesh m -> m_dim m = 3%nat -> length x = 3%nat ->
  (forall q, In q fc -> length q = 3%nat) ->
  (forall f face e0 es a b c, nth_error (m_faces m) (N.to_nat f) = Some face -> f_subs face = e0 :: es -> edge_points m e0 a b ->
     nth_error fc (N.to_nat f) = Some c -> tri_area c a b <> 0) ->
  (forall f face c es F, nth_error (m_faces m) (N.to_nat f) = Some face -> nth_error fc (N.to_nat f) = Some c ->
     Forall2 (fun f e => edge_points m f (fst e) (snd e)) (f_subs face) es -> nth_error Fs (N.to_nat f) = Some F ->
     F = Rsum (map (fun e => tri_area c (fst e) (snd e)) es)) ->
  face_poly m fc f p -> pyramid m fc Fs x f d ->
  d = Rsum (map (fun e => Rabs (vol6 x (fst p) (fst e) (snd e)) / 6) (cycle_edges (snd p))).
Proof.
  intros G D Lx Lfc HT HFs HP (face & e0 & es0 & a & b & c & h & F & Hf & Hs & Hab & Hc & Hh & HF & ->).
  pose proof (face_poly_len m fc f p G D HP) as Lvs. destruct p as [c' vs]. cbn [fst snd] in *.
  destruct HP as (Hc' & Hcop & face' & es & Hf' & HE & HTr). cbn [fst snd] in *.
  assert (face' = face) by congruence. assert (c' = c) by congruence. subst face' c'.
  pose proof (HT _ _ _ _ _ _ _ Hf Hs Hab Hc) as Ht. destruct (edge_points_length _ _ _ _ G Hab) as [La Lb]. rewrite D in La, Lb.
  assert (Lc : length c = 3%nat) by (apply Lfc; eapply nth_error_In; exact Hc).
  rewrite (HFs f face c es F Hf Hc HE HF).
  assert (Hin : forall e, In e es -> In (fst e) vs /\ In (snd e) vs).
  { intros e He. destruct (traces_out _ _ _ HTr He) as [H|H]; apply cycle_edges_in in H; destruct e; simpl in *; tauto. }
  assert (Hab' : In (a, b) es).
  { rewrite Hs in HE. destruct es as [|[a' b'] es]; [inversion HE|]. apply Forall2_cons_iff in HE as [Q _]. cbn [fst snd] in Q.
    destruct (edge_points_det _ _ _ _ _ _ Hab Q) as [-> ->]. left. reflexivity. }
  destruct (Hin _ Hab') as [Ia Ib]. cbn [fst snd] in Ia, Ib.
  destruct Hh as (n & Ln & Hu & Ha & Hb & ->). destruct Hcop as (w & k & Lw & Hw & Hk).
  assert (Hn : forall v, In v vs -> sprod n v = sprod n c).
  { intros v Hv.
    assert (Z : sprod n (diff v c) = 0).
    { apply (plane_orth (diff a c) (diff b c) w n (diff v c)); auto using d3len.
      - apply tri_area_gram. exact Ht.
      - rewrite sprod_diff_r by congruence. rewrite (Hk a), (Hk c) by (simpl; auto). lra.
      - rewrite sprod_diff_r by congruence. rewrite (Hk b), (Hk c) by (simpl; auto). lra.
      - rewrite sprod_diff_r by (rewrite Lc; apply Lvs; assumption). rewrite (Hk v), (Hk c) by (simpl; auto). lra.
      - rewrite sprod_diff_r by congruence. lra.
      - rewrite sprod_diff_r by congruence. lra. }
    rewrite sprod_diff_r in Z by (rewrite Lc; apply Lvs; assumption). lra. }
  rewrite <- (traces_sum (fun e => Rabs (vol6 x c (fst e) (snd e)) / 6) es).
  - rewrite (Rsum_ext (fun e => Rabs (vol6 x c (fst e) (snd e)) / 6) (fun e => Rabs (sprod n x - sprod n c) / 3 * tri_area c (fst e) (snd e))).
    + rewrite Rsum_scale. field.
    + intros e He. destruct (Hin e He) as [I1 I2].
      rewrite (tri_height x c (fst e) (snd e) n); auto. field.
  - intros [u v]. cbn [rev_edge fst snd].
    replace (vol6 x c v u) with (- vol6 x c u v) by (unfold vol6, det3; ring). rewrite Rabs_Ropp. reflexivity.
  - exact HTr.
Qed.

(** C49. A cell with planar faces whose face polygons form a closed surface: the computed measure is never less than the volume
    of the polyhedron, and equal to it when the cell centre x and the face centres see all edges in the same orientation,
    whatever the points x and c are otherwise. *)
Theorem C49_polyhedron : forall m cc fc, geo_mesh m -> no_empty m -> m_dim m = 3%nat ->
  (forall p, In p cc -> length p = 3%nat) -> (forall p, In p fc -> length p = 3%nat) ->
  length cc = length (m_cells m) -> length fc = length (m_faces m) ->
  (forall e a b, edge_points m e a b -> a <> b) ->
  (forall f face e0 es a b c, nth_error (m_faces m) (N.to_nat f) = Some face -> f_subs face = e0 :: es -> edge_points m e0 a b ->
     nth_error fc (N.to_nat f) = Some c -> tri_area c a b <> 0) ->
  forall ls Fs Vs, computeMeasures3 (K := numR) m cc fc = Ok (ls, Fs, Vs) ->
  forall i x fs ps V, nth_error cc (N.to_nat i) = Some x -> ring m i fs -> Forall2 (face_poly m fc) fs ps ->
    closed_surface (map snd ps) -> nth_error Vs (N.to_nat i) = Some V ->
    Rabs (poly_volume (map snd ps)) <= V /\
    ((forall p e, In p ps -> In e (cycle_edges (snd p)) -> 0 <= vol6 x (fst p) (fst e) (snd e)) \/
     (forall p e, In p ps -> In e (cycle_edges (snd p)) -> vol6 x (fst p) (fst e) (snd e) <= 0) ->
     V = Rabs (poly_volume (map snd ps))).
Proof.
  intros m cc fc G HN D Lcc Lfc L1 L2 Hne HT ls Fs Vs EM i x fs ps V Hx HR HP HC HV.
  destruct (C49_measures3 m cc fc G HN D Lcc Lfc L1 L2 Hne HT) as (ls' & Fs' & Vs' & EM' & _ & LF & _ & _ & HFs & HVs).
  pose proof (eq_trans (eq_sym EM) EM') as Q. injection Q as <- <- <-. clear EM'.
  assert (Lx : length x = 3%nat) by (apply Lcc; eapply nth_error_In; exact Hx).
  assert (HD : exists ds, Forall2 (pyramid m fc Fs x) fs ds /\
     ds = map (fun p => Rsum (map (fun e => Rabs (vol6 x (fst p) (fst e) (snd e)) / 6) (cycle_edges (snd p)))) ps).
  { assert (Hlt : forall f, In f fs -> (f < N.of_nat (length (m_faces m)))%N) by (intros f Hf; eapply ring_lt; eassumption).
    clear HR HC. induction HP as [|f p fs ps Hp HP IH]; [exists []; split; constructor|].
    destruct IH as (ds & Hds & Eds); [intros; apply Hlt; right; assumption|].
    destruct (pyramid_total m fc Fs x f G HN D Lx Lfc L2 LF HT (Hlt f (or_introl eq_refl))) as (d & Hd).
    exists (d :: ds). split; [constructor; assumption|]. cbn [map]. f_equal; [|exact Eds].
    apply (pyramid_poly m fc Fs x f p d G D Lx Lfc HT HFs Hp Hd). }
  destruct HD as (ds & HD & Eds). pose proof (HVs i x fs ds V Hx HR HD HV) as ->. rewrite Eds. clear HV HD Eds ds.
  assert (Hps : forall p, In p ps -> coplanar (fst p :: snd p) /\ length (fst p) = 3%nat /\ forall v, In v (snd p) -> length v = 3%nat).
  { intros p Hp. apply In_nth_error in Hp as (j & Hj). apply Forall2_nth in HP as [LP HP].
    destruct (nth_error fs j) as [f|] eqn:Ef; [|apply nth_error_None in Ef; assert (j < length ps)%nat by (apply nth_error_Some; congruence); lia].
    pose proof (HP j f p Ef Hj) as Hfp. pose proof Hfp as (A & B & _). splits; [exact B| |].
    - apply Lfc. eapply nth_error_In. exact A.
    - apply (face_poly_len m fc f p G D Hfp). }
  pose proof (surface_sum x ps HC Hps) as HS.
  set (tris := flat_map (fun p => map (fun e => (fst p, e)) (cycle_edges (snd p))) ps).
  set (g := fun t : point * (point * point) => vol6 x (fst t) (fst (snd t)) (snd (snd t))).
  assert (E1 : Rsum (map (fun p => Rsum (map (fun e => Rabs (vol6 x (fst p) (fst e) (snd e)) / 6) (cycle_edges (snd p)))) ps) =
               Rsum (map (fun t => Rabs (g t)) tris) / 6).
  { unfold tris. rewrite Rsum_flat. unfold Rdiv at 2. rewrite Rmult_comm, <- Rsum_scale. apply Rsum_ext. intros p _.
    rewrite <- Rsum_scale, map_map. apply Rsum_ext. intros e _. unfold g. cbn [fst snd]. field. }
  assert (E2 : Rsum (map g tris) = 6 * poly_volume (map snd ps)).
  { rewrite <- HS. unfold tris. rewrite Rsum_flat. apply Rsum_ext. intros p _. rewrite map_map. reflexivity. }
  rewrite E1.
  assert (E3 : Rabs (poly_volume (map snd ps)) = Rabs (Rsum (map g tris)) / 6).
  { rewrite E2, Rabs_mult, (Rabs_right 6) by lra. field. }
  assert (Htr : forall t, In t tris -> exists p e, In p ps /\ In e (cycle_edges (snd p)) /\ t = (fst p, e)).
  { intros t Ht. apply in_flat_map in Ht as (p & Hp & Ht). apply in_map_iff in Ht as (e & <- & He). eauto. }
  rewrite E3. split.
  - pose proof (Rsum_abs g tris). lra.
  - intros [H|H].
    + rewrite (Rsum_abs_pos g tris); [reflexivity|]. intros t Ht. destruct (Htr t Ht) as (p & e & Hp & He & ->). unfold g. cbn [fst snd]. auto.
    + rewrite (Rsum_abs_neg g tris); [reflexivity|]. intros t Ht. destruct (Htr t Ht) as (p & e & Hp & He & ->). unfold g. cbn [fst snd]. auto.
Qed.
Print Assumptions C49_polyhedron.

(** * Tetrahedra *)
Ltac split_at a r :=
  lazymatch r with
  | a :: ?l => constr:((@nil (point * point), l))
  | ?b :: ?l => let s := split_at a l in lazymatch s with (?l1, ?l2) => constr:((b :: l1, l2)) end
  end.
Ltac perm_tac :=
  repeat match goal with
  | |- Permutation [] [] => constructor
  | |- Permutation (?a :: ?l) ?r =>
      let s := split_at a r in
      lazymatch s with (?l1, ?l2) => change r with (l1 ++ a :: l2); apply Permutation_cons_app; cbn [app] end
  end.
Definition tet_faces (p q r s : point) : list (list point) := [[q; r; s]; [p; s; r]; [p; q; s]; [p; r; q]].
Lemma tet_closed p q r s : closed_surface (tet_faces p q r s).
Proof.
  unfold closed_surface, tet_faces. cbn [flat_map cycle_edges path_edges app map]. unfold rev_edge. cbn [fst snd]. perm_tac.
Qed.
Lemma closed_perm vss vss' : Permutation vss vss' -> closed_surface vss' -> closed_surface vss.
Proof.
  intros HP HC. unfold closed_surface in *.
  pose proof (Permutation_flat_map cycle_edges HP) as Q.
  eapply Permutation_trans; [exact Q|]. eapply Permutation_trans; [exact HC|]. apply Permutation_map. apply Permutation_sym. exact Q.
Qed.
Lemma tet_volume p q r s vss : Permutation vss (tet_faces p q r s) -> poly_volume vss = vol6 p q r s / 6.
Proof.
  intros HP. unfold poly_volume. rewrite (Rsum_perm _ _ (Permutation_map face_fan HP)). f_equal.
  unfold tet_faces. cbn [map Rsum face_fan cycle_edges path_edges app fst snd].
  unfold vol6, det3, px, py, pz. simpl. ring.
Qed.
Lemma hull3 a b d c : in_hull [a; b; d] c -> length a = 3%nat -> length b = 3%nat -> length d = 3%nat ->
  exists u v w, 0 <= u /\ 0 <= v /\ 0 <= w /\ u + v + w = 1 /\
    (forall x, vol6 x c a b = w * vol6 x a b d /\ vol6 x c b d = u * vol6 x a b d /\ vol6 x c d a = v * vol6 x a b d) /\
    forall n, length n = 3%nat -> sprod n c = u * sprod n a + v * sprod n b + w * sprod n d.
Proof.
  intros (Lc & ws & Lw & Hw & Hs & Hc) La Lb Ld.
  destruct ws as [|u [|v [|w [|]]]]; try discriminate. exists u, v, w.
  split; [apply Hw; simpl; auto|]. split; [apply Hw; simpl; auto|]. split; [apply Hw; simpl; auto|]. cbn [Rsum] in Hs. split; [lra|].
  destruct (len3 a La) as (a0 & a1 & a2 & ->). destruct (len3 b Lb) as (b0 & b1 & b2 & ->).
  destruct (len3 d Ld) as (d0 & d1 & d2 & ->). destruct (len3 c Lc) as (c0 & c1 & c2 & ->).
  pose proof (Hc 0%nat ltac:(lia)) as H0. pose proof (Hc 1%nat ltac:(lia)) as H1. pose proof (Hc 2%nat ltac:(lia)) as H2.
  cbn [nth combine map fst snd Rsum] in H0, H1, H2.
  assert (Eu : u = 1 - v - w) by lra. clear Hs Hc Hw. subst u. split.
  - intros x. rewrite H0, H1, H2. unfold vol6, det3, px, py, pz. simpl. repeat split; ring.
  - intros n Ln. destruct (len3 n Ln) as (n0 & n1 & n2 & ->). rewrite H0, H1, H2. simpl. ring.
Qed.
Lemma hull4 p q r s x : in_hull [p; q; r; s] x -> length p = 3%nat -> length q = 3%nat -> length r = 3%nat -> length s = 3%nat ->
  exists i j k l, 0 <= i /\ 0 <= j /\ 0 <= k /\ 0 <= l /\
    vol6 x q r s = i * vol6 p q r s /\ vol6 x p s r = j * vol6 p q r s /\ vol6 x p q s = k * vol6 p q r s /\ vol6 x p r q = l * vol6 p q r s.
Proof.
  intros (Lx & ws & Lw & Hw & Hs & Hc) Lp Lq Lr Ls.
  destruct ws as [|i [|j [|k [|l [|]]]]]; try discriminate. exists i, j, k, l.
  split; [apply Hw; simpl; auto|]. split; [apply Hw; simpl; auto|]. split; [apply Hw; simpl; auto|]. split; [apply Hw; simpl; auto 6|].
  cbn [Rsum] in Hs.
  destruct (len3 p Lp) as (p0 & p1 & p2 & ->). destruct (len3 q Lq) as (q0 & q1 & q2 & ->).
  destruct (len3 r Lr) as (r0 & r1 & r2 & ->). destruct (len3 s Ls) as (s0 & s1 & s2 & ->). destruct (len3 x Lx) as (x0 & x1 & x2 & ->).
  pose proof (Hc 0%nat ltac:(lia)) as H0. pose proof (Hc 1%nat ltac:(lia)) as H1. pose proof (Hc 2%nat ltac:(lia)) as H2.
  cbn [nth combine map fst snd Rsum] in H0, H1, H2.
  assert (Ei : i = 1 - j - k - l) by lra. clear Hs Hc Hw. subst i. rewrite H0, H1, H2.
  unfold vol6, det3, px, py, pz. simpl. repeat split; ring.
Qed.
Lemma tri_coplanar a b d c t : in_hull [a; b; d] c -> length a = 3%nat -> length b = 3%nat -> length d = 3%nat -> length t = 3%nat ->
  vol6 t a b d <> 0 -> coplanar [c; a; b; d].
Proof.
  intros HC La Lb Ld Lt HV. pose proof (hull3 a b d c HC La Lb Ld) as (u & v & w & _ & _ & _ & Hs & _ & Hn).
  assert (HV' : vol6 t b d a <> 0) by (replace (vol6 t b d a) with (vol6 t a b d) by (unfold vol6, det3; ring); assumption).
  pose proof (gram_of_vol6 a b d t La Lb Ld Lt HV') as HG.
  destruct (unit_normal (diff b a) (diff d a)) as (n & Ln & Hu & H1 & H2); auto using d3len.
  rewrite sprod_diff_r in H1, H2 by congruence.
  exists n, (sprod n a). split; [assumption|]. split; [lra|]. intros y Hy. simpl in Hy.
  destruct Hy as [<-|[<-|[<-|[<-|[]]]]]; try lra. rewrite (Hn n Ln). replace u with (1 - v - w) by lra.
  replace (sprod n b) with (sprod n a) by lra. replace (sprod n d) with (sprod n a) by lra. ring.
Qed.

(** C49. A tetrahedron p, q, r, s (faces, edges in any order and direction) has the volume |det|/6, wherever inside it the cell
    centre is and wherever in the faces the face centres are. *)
Theorem C49_tetrahedron : forall m cc fc, geo_mesh m -> no_empty m -> m_dim m = 3%nat ->
  (forall p, In p cc -> length p = 3%nat) -> (forall p, In p fc -> length p = 3%nat) ->
  length cc = length (m_cells m) -> length fc = length (m_faces m) ->
  (forall e a b, edge_points m e a b -> a <> b) ->
  (forall f face e0 es a b c, nth_error (m_faces m) (N.to_nat f) = Some face -> f_subs face = e0 :: es -> edge_points m e0 a b ->
     nth_error fc (N.to_nat f) = Some c -> tri_area c a b <> 0) ->
  forall ls Fs Vs, computeMeasures3 (K := numR) m cc fc = Ok (ls, Fs, Vs) ->
  forall i x fs vss p q r s V, nth_error cc (N.to_nat i) = Some x -> ring m i fs ->
    length p = 3%nat -> length q = 3%nat -> length r = 3%nat -> length s = 3%nat -> vol6 p q r s <> 0 ->
    in_hull [p; q; r; s] x -> Permutation vss [[q; r; s]; [p; s; r]; [p; q; s]; [p; r; q]] ->
    Forall2 (fun f vs => exists c face es, nth_error fc (N.to_nat f) = Some c /\ in_hull vs c /\
       nth_error (m_faces m) (N.to_nat f) = Some face /\ Forall2 (fun e ab => edge_points m e (fst ab) (snd ab)) (f_subs face) es /\
       traces es (cycle_edges vs)) fs vss ->
    nth_error Vs (N.to_nat i) = Some V -> V = Rabs (vol6 p q r s) / 6.
Proof.
  intros m cc fc G HN D Lcc Lfc L1 L2 Hne HT ls Fs Vs EM i x fs vss p q r s V Hx HR Lp Lq Lr Ls HV6 HX HP HF HV.
  assert (Lx : length x = 3%nat) by (apply Lcc; eapply nth_error_In; exact Hx).
  (* every face is one of the four, seen with the sign of the whole *)
  assert (Hface : forall vs, In vs vss -> exists a b d t k, vs = [a; b; d] /\ length a = 3%nat /\ length b = 3%nat /\ length d = 3%nat /\
     length t = 3%nat /\ vol6 t a b d <> 0 /\ 0 <= k /\ vol6 x a b d = k * vol6 p q r s).
  { destruct (hull4 p q r s x HX Lp Lq Lr Ls) as (i1 & i2 & i3 & i4 & P1 & P2 & P3 & P4 & Q1 & Q2 & Q3 & Q4).
    intros vs Hvs. apply (Permutation_in _ HP) in Hvs. destruct Hvs as [<-|[<-|[<-|[<-|[]]]]].
    - exists q, r, s, p, i1. splits; try assumption; reflexivity.
    - exists p, s, r, q, i2. splits; try assumption; try reflexivity. replace (vol6 q p s r) with (vol6 p q r s) by (unfold vol6, det3; ring). assumption.
    - exists p, q, s, r, i3. splits; try assumption; try reflexivity. replace (vol6 r p q s) with (vol6 p q r s) by (unfold vol6, det3; ring). assumption.
    - exists p, r, q, s, i4. splits; try assumption; try reflexivity. replace (vol6 s p r q) with (vol6 p q r s) by (unfold vol6, det3; ring). assumption. }
  assert (Hps : exists ps, Forall2 (face_poly m fc) fs ps /\ map snd ps = vss /\ forall y, In y ps -> In (snd y) vss /\ in_hull (snd y) (fst y)).
  { clear HR HP. induction HF as [|f vs fs vss (c & face & es & Hc & Hh & Hf & HE & HTr) HF IH]; [exists []; splits; [constructor|reflexivity|intros y []]|].
    destruct IH as (ps & IH1 & IH2 & IH3); [intros; apply Hface; right; assumption|].
    exists ((c, vs) :: ps). splits.
    - constructor; [|exact IH1]. split; [exact Hc|]. split; [|exists face, es; auto]. cbn [fst snd].
      destruct (Hface vs (or_introl eq_refl)) as (a & b & d & t & k & -> & La & Lb & Ld & Lt & Hv & _).
      apply (tri_coplanar a b d c t); assumption.
    - cbn [map snd]. rewrite IH2. reflexivity.
    - intros y [<-|Hy]; [cbn [fst snd]; split; [left; reflexivity|assumption]|]. destruct (IH3 y Hy). split; [right; assumption|assumption]. }
  destruct Hps as (ps & HPs & Esnd & Hin).
  assert (HC : closed_surface (map snd ps)) by (rewrite Esnd; eapply closed_perm; [exact HP|apply tet_closed]).
  destruct (C49_polyhedron m cc fc G HN D Lcc Lfc L1 L2 Hne HT ls Fs Vs EM i x fs ps V Hx HR HPs HC HV) as [_ Q].
  rewrite Q, Esnd.
  - rewrite (tet_volume p q r s vss HP). unfold Rdiv. rewrite Rabs_mult, (Rabs_right (/ 6)) by lra. reflexivity.
  - assert (Hsign : forall y e, In y ps -> In e (cycle_edges (snd y)) -> exists k, 0 <= k /\ vol6 x (fst y) (fst e) (snd e) = k * vol6 p q r s).
    { intros [c vs] e Hy He. destruct (Hin _ Hy) as [Hvs Hh]. cbn [fst snd] in *.
      destruct (Hface vs Hvs) as (a & b & d & t & k & -> & La & Lb & Ld & Lt & _ & Hk & Ek).
      destruct (hull3 a b d c Hh La Lb Ld) as (u & v & w & Hu & Hv & Hw & _ & Hvol & _).
      destruct (Hvol x) as (V1 & V2 & V3). cbn [cycle_edges path_edges app] in He.
      destruct He as [<-|[<-|[<-|[]]]]; cbn [fst snd].
      - exists (w * k). split; [apply Rmult_le_pos; assumption|]. rewrite V1, Ek. ring.
      - exists (u * k). split; [apply Rmult_le_pos; assumption|]. rewrite V2, Ek. ring.
      - exists (v * k). split; [apply Rmult_le_pos; assumption|]. rewrite V3, Ek. ring. }
    destruct (Rle_or_lt 0 (vol6 p q r s)) as [Hp|Hp]; [left|right]; intros y e Hy He; destruct (Hsign y e Hy He) as (k & Hk & ->).
    + apply Rmult_le_pos; assumption.
    + replace (k * vol6 p q r s) with (- (k * - vol6 p q r s)) by ring.
      assert (0 <= k * - vol6 p q r s) by (apply Rmult_le_pos; lra). lra.
Qed.
Print Assumptions C49_tetrahedron.

(** Non-vacuity: a mesh of one tetrahedron; its measure is 1/6. *)
Definition tetMesh : Mesh (Z * Z * Z) :=
  mkMesh 3 [(0,0,0);(1,0,0);(0,1,0);(0,0,1)]%Z
    [[[0;1];[0;2];[0;3];[1;2];[2;3];[1;3]]%N]
    [mkF [3;4;5]%N [(1,0)%N]; mkF [2;4;1]%N [(2,0)%N]; mkF [0;5;2]%N [(3,0)%N]; mkF [1;3;0]%N [(0,0)%N]]
    [0%N] [].
Definition tetR : Mesh point := with_points pt3 tetMesh.
Definition tetCC : list point := [[/4; /4; /4]].
Definition tetFC : list point := [[/3; /3; /3]; [0; /3; /3]; [/3; 0; /3]; [/3; /3; 0]].
Lemma tet_gram c a b : 0 < sprod (diff a c) (diff a c) * sprod (diff b c) (diff b c) - sprod (diff a c) (diff b c) * sprod (diff a c) (diff b c) -> tri_area c a b <> 0.
Proof. intros H. unfold tri_area. cbv zeta. pose proof (sqrt_lt_R0 _ H). lra. Qed.
Example C49_instance : exists ls Fs V, computeMeasures3 (K := numR) tetR tetCC tetFC = Ok (ls, Fs, [V]) /\ V = 1 / 6.
Proof.
  assert (G : geo_mesh tetR).
  { constructor; [apply wf_meshb_sound; apply (with_points_wf pt3 tetMesh); vm_compute; reflexivity|].
    simpl. intros p H. repeat destruct H as [<-|H]; try reflexivity. destruct H. }
  assert (HN : no_empty tetR) by (apply no_empty_faces; reflexivity).
  assert (Lcc : forall p, In p tetCC -> length p = 3%nat) by (intros p [<-|[]]; reflexivity).
  assert (Lfc : forall p, In p tetFC -> length p = 3%nat) by (intros p H; simpl in H; repeat destruct H as [<-|H]; try reflexivity; destruct H).
  assert (HE : forall e a b, edge_points tetR e a b -> In (e, (a, b)) [(0%N, ([0;0;0],[1;0;0])); (1%N, ([0;0;0],[0;1;0])); (2%N, ([0;0;0],[0;0;1]));
     (3%N, ([1;0;0],[0;1;0])); (4%N, ([0;1;0],[0;0;1])); (5%N, ([1;0;0],[0;0;1]))]).
  { intros e a b (i & j & Hs & Hi & Hj). unfold subs in Hs. cbn [m_dim tetR with_points tetMesh Nat.sub Nat.eqb m_mid nth_error] in Hs.
    apply vat_ok in Hs. rewrite <- (N2Nat.id e).
    destruct (N.to_nat e) as [|[|[|[|[|[|k]]]]]]; cbn [nth_error] in Hs;
      try (injection Hs as <- <-; simpl in Hi, Hj; injection Hi as <-; injection Hj as <-; simpl; auto 10; fail).
    destruct k; discriminate. }
  assert (Hne : forall e a b, edge_points tetR e a b -> a <> b).
  { intros e a b H. apply HE in H. simpl in H.
    repeat (destruct H as [Q|H]; [injection Q as _ <- <-; intros Z; injection Z; intros; lra|]). destruct H. }
  assert (HFs : forall f face c, nth_error (m_faces tetR) (N.to_nat f) = Some face -> nth_error tetFC (N.to_nat f) = Some c ->
    In (f_subs face, c) [([3;4;5]%N, [/3; /3; /3]); ([2;4;1]%N, [0; /3; /3]); ([0;5;2]%N, [/3; 0; /3]); ([1;3;0]%N, [/3; /3; 0])]).
  { intros f face c Hf Hc. apply (map_nth_error f_subs) in Hf.
    change (map f_subs (m_faces tetR)) with [[3;4;5]%N; [2;4;1]%N; [0;5;2]%N; [1;3;0]%N] in Hf. unfold tetFC in Hc.
    destruct (N.to_nat f) as [|[|[|[|k]]]]; cbn [nth_error] in Hf, Hc; try (injection Hf as <-; injection Hc as <-; simpl; auto 10; fail).
    destruct k; discriminate. }
  assert (HT : forall f face e0 es a b c, nth_error (m_faces tetR) (N.to_nat f) = Some face -> f_subs face = e0 :: es -> edge_points tetR e0 a b ->
     nth_error tetFC (N.to_nat f) = Some c -> tri_area c a b <> 0).
  { intros f face e0 es a b c Hf Hs Hab Hc. pose proof (HFs f face c Hf Hc) as H. rewrite Hs in H. apply HE in Hab. apply tet_gram.
    simpl in H. repeat (destruct H as [Q|H]; [injection Q as <- _ <-; simpl in Hab;
      repeat (destruct Hab as [Q|Hab]; [first [discriminate Q | injection Q as <- <-; simpl; lra]|]); destruct Hab|]). destruct H. }
  destruct (C49_measures3 tetR tetCC tetFC G HN eq_refl Lcc Lfc eq_refl eq_refl Hne HT) as (ls & Fs & Vs & EM & _ & _ & LV & _).
  destruct Vs as [|V [|]]; try discriminate. exists ls, Fs, V. split; [exact EM|].
  assert (HR : ring tetR 0 [0;1;2;3]%N) by (apply ring_iff; vm_compute; reflexivity).
  rewrite (C49_tetrahedron tetR tetCC tetFC G HN eq_refl Lcc Lfc eq_refl eq_refl Hne HT ls Fs [V] EM 0%N [/4; /4; /4] [0;1;2;3]%N
    [[[1;0;0]; [0;1;0]; [0;0;1]]; [[0;0;0]; [0;0;1]; [0;1;0]]; [[0;0;0]; [1;0;0]; [0;0;1]]; [[0;0;0]; [0;1;0]; [1;0;0]]]
    [0;0;0] [1;0;0] [0;1;0] [0;0;1] V); try reflexivity; try assumption.
  - replace (vol6 [0;0;0] [1;0;0] [0;1;0] [0;0;1]) with 1 by (unfold vol6, det3, px, py, pz; simpl; ring). rewrite Rabs_R1. reflexivity.
  - unfold vol6, det3, px, py, pz; simpl; lra.
  - split; [reflexivity|]. exists [/4; /4; /4; /4]. splits; [reflexivity| |simpl; lra|].
    + intros w H. simpl in H. repeat destruct H as [<-|H]; try lra.
    + intros [|[|[|j]]] Hj; simpl; try lra; lia.
  - assert (Hull : forall a b d c, (forall j, (j < 3)%nat -> nth j c 0 = / 3 * nth j a 0 + (/3 * nth j b 0 + (/ 3 * nth j d 0 + 0))) -> length c = 3%nat -> in_hull [a; b; d] c).
    { intros a b d c H L. split; [exact L|]. exists [/3; /3; /3]. splits; [reflexivity| |simpl; lra|exact H].
      intros w H'. simpl in H'. repeat destruct H' as [<-|H']; try lra. }
    assert (Hf : forall k c es vs, nth_error tetFC k = Some c -> in_hull vs c ->
       (exists face, nth_error (m_faces tetR) k = Some face /\ Forall2 (fun e ab => edge_points tetR e (fst ab) (snd ab)) (f_subs face) es) ->
       traces es (cycle_edges vs) -> exists c face es, nth_error tetFC k = Some c /\ in_hull vs c /\
       nth_error (m_faces tetR) k = Some face /\ Forall2 (fun e ab => edge_points tetR e (fst ab) (snd ab)) (f_subs face) es /\
       traces es (cycle_edges vs)).
    { intros k c es vs H1 H2 (face & H3 & H4) H5. exists c, face, es. splits; assumption. }
    assert (Hed : forall es ds, Forall2 (fun e d => d = e \/ d = rev_edge e) es ds -> traces es ds).
    { intros es ds H. exists ds. split; [apply Permutation_refl|assumption]. }
    assert (Hep : forall es (l : list N), Forall2 (fun e ab => edge_points tetR e (fst ab) (snd ab)) l es -> forall face, f_subs face = l ->
       Forall2 (fun e ab => edge_points tetR e (fst ab) (snd ab)) (f_subs face) es) by (intros es l H face E; rewrite E; exact H).
    repeat (apply Forall2_cons_iff; split); [..|constructor].
    + eapply (Hf 0%nat _ [([1;0;0],[0;1;0]); ([0;1;0],[0;0;1]); ([1;0;0],[0;0;1])]); [reflexivity| | |].
      * apply Hull; [intros [|[|[|j]]] Hj; simpl; try lra; lia|reflexivity].
      * eexists; split; [reflexivity|]. apply (Hep _ [3;4;5]%N); [|reflexivity].
        repeat apply Forall2_cons; [..|apply Forall2_nil]; eexists _, _; cbn [fst snd]; splits; reflexivity.
      * apply Hed. cbn [cycle_edges path_edges app]. unfold rev_edge. repeat apply Forall2_cons; [..|apply Forall2_nil]; auto.
    + eapply (Hf 1%nat _ [([0;0;0],[0;0;1]); ([0;1;0],[0;0;1]); ([0;0;0],[0;1;0])]); [reflexivity| | |].
      * apply Hull; [intros [|[|[|j]]] Hj; simpl; try lra; lia|reflexivity].
      * eexists; split; [reflexivity|]. apply (Hep _ [2;4;1]%N); [|reflexivity].
        repeat apply Forall2_cons; [..|apply Forall2_nil]; eexists _, _; cbn [fst snd]; splits; reflexivity.
      * apply Hed. cbn [cycle_edges path_edges app]. unfold rev_edge. repeat apply Forall2_cons; [..|apply Forall2_nil]; auto.
    + eapply (Hf 2%nat _ [([0;0;0],[1;0;0]); ([1;0;0],[0;0;1]); ([0;0;0],[0;0;1])]); [reflexivity| | |].
      * apply Hull; [intros [|[|[|j]]] Hj; simpl; try lra; lia|reflexivity].
      * eexists; split; [reflexivity|]. apply (Hep _ [0;5;2]%N); [|reflexivity].
        repeat apply Forall2_cons; [..|apply Forall2_nil]; eexists _, _; cbn [fst snd]; splits; reflexivity.
      * apply Hed. cbn [cycle_edges path_edges app]. unfold rev_edge. repeat apply Forall2_cons; [..|apply Forall2_nil]; auto.
    + eapply (Hf 3%nat _ [([0;0;0],[0;1;0]); ([1;0;0],[0;1;0]); ([0;0;0],[1;0;0])]); [reflexivity| | |].
      * apply Hull; [intros [|[|[|j]]] Hj; simpl; try lra; lia|reflexivity].
      * eexists; split; [reflexivity|]. apply (Hep _ [1;3;0]%N); [|reflexivity].
        repeat apply Forall2_cons; [..|apply Forall2_nil]; eexists _, _; cbn [fst snd]; splits; reflexivity.
      * apply Hed. cbn [cycle_edges path_edges app]. unfold rev_edge. repeat apply Forall2_cons; [..|apply Forall2_nil]; auto.
Qed.

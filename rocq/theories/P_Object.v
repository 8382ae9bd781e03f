(** The geometric functions do not see boundary cells. *)
From Verif Require Import P_Base M_Index P_Index M_Conn M_Mesh M_Apply S_Mesh P_Apply S_Boundary P_Boundary T_Mesh M_Vec M_Geom M_GeomN M_Object T_Topology.

Lemma bind_ext {A B} (o : outcome A) (f g : A -> outcome B) : (forall a, f a = g a) -> bind o f = bind o g.
Proof. intros H. destruct o; simpl; auto. Qed.

Lemma foldM_ext {A S} (f g : S -> A -> outcome S) l : (forall s a, In a l -> f s a = g s a) -> forall s, foldM f l s = foldM g l s.
Proof.
  induction l as [|a r IH]; intros H s; [reflexivity|]. cbn [foldM]. rewrite (H s a) by (left; reflexivity). apply bind_ext. intros s'.
  apply IH. intros; apply H; right; assumption.
Qed.

Section Kept.
Context {K : Num}.
Implicit Type m : Mesh (vec K).

Lemma setup_edge_pts m e : edge_pts (setupBoundaryCells m) e = edge_pts m e.
Proof.
  pose proof (setup_rest m) as (_ & Hv & _). unfold edge_pts, ends. rewrite setup_subs, Hv. reflexivity.
Qed.
Lemma setup_edge_lengths m : edge_lengths (setupBoundaryCells m) = edge_lengths m.
Proof. unfold edge_lengths. rewrite setup_n_elems. apply mapM_ext. intros e _. rewrite setup_edge_pts. reflexivity. Qed.
Lemma setup_apply1_low m k i : 1 <= m_dim m -> k < m_dim m -> apply1 (setupBoundaryCells m) k (k - 1) i = apply1 m k (k - 1) i.
Proof. intros HD Hk. unfold apply1. rewrite setup_run_low by assumption. reflexivity. Qed.
Lemma setup_apply1 m k i : 1 <= m_dim m -> (N.of_nat (length (m_cells m)) <= 2 ^ 63)%N -> k <= m_dim m -> In i (seqN (n_elems m k)) ->
  apply1 (setupBoundaryCells m) k (k - 1) i = apply1 m k (k - 1) i.
Proof.
  intros HD HC Hk Hi. destruct (Nat.eq_dec k (m_dim m)) as [->|]; [|apply setup_apply1_low; lia].
  apply in_seqN in Hi. unfold n_elems in Hi. rewrite Nat.eqb_refl in Hi. destruct (Nat.eqb_spec (m_dim m) 0); [lia|].
  unfold apply1. rewrite setup_run by lia. reflexivity.
Qed.
Lemma setup_center_level d m k sub : 1 <= m_dim m -> (N.of_nat (length (m_cells m)) <= 2 ^ 63)%N -> k <= m_dim m ->
  center_level d (setupBoundaryCells m) k sub = center_level d m k sub.
Proof.
  intros HD HC Hk. unfold center_level. rewrite setup_n_elems. apply mapM_ext. intros i Hi. rewrite setup_apply1 by assumption. reflexivity.
Qed.
Lemma setup_tess m sub : m_dim m = 3 -> (N.of_nat (length (m_cells m)) <= 2 ^ 63)%N ->
  tess_face_centers (setupBoundaryCells m) sub = tess_face_centers m sub.
Proof.
  intros D HC. unfold tess_face_centers. rewrite setup_center_level by (lia || assumption). apply bind_ext. intros c0s.
  rewrite setup_n_elems. apply mapM_ext. intros i Hi. apply bind_ext. intros c0.
  pose proof (setup_apply1_low m 2 i ltac:(lia) ltac:(lia)) as EA; cbn [Nat.sub] in EA; rewrite EA; clear EA. apply bind_ext. intros calls. f_equal. apply foldM_ext. intros s c _.
  unfold tess_sub. rewrite setup_edge_pts. reflexivity.
Qed.
Lemma setup_levels tess d m : 1 <= m_dim m -> (N.of_nat (length (m_cells m)) <= 2 ^ 63)%N -> forall steps k sub, k + steps <= m_dim m + 1 ->
  center_levels tess d (setupBoundaryCells m) steps k sub = center_levels tess d m steps k sub.
Proof.
  intros HD HC. pose proof (setup_rest m) as (D & _). induction steps as [|s IH]; intros k sub Hk; [reflexivity|]. cbn [center_levels]. rewrite D.
  destruct (tess && (k =? 2) && (m_dim m =? 3)) eqn:E.
  - apply andb_true_iff in E as [_ E]. apply Nat.eqb_eq in E. rewrite setup_tess by assumption. apply bind_ext. intros l. rewrite IH by lia. reflexivity.
  - rewrite setup_center_level by (assumption || lia). apply bind_ext. intros l. rewrite IH by lia. reflexivity.
Qed.
Lemma setup_centers tess m : 1 <= m_dim m -> (N.of_nat (length (m_cells m)) <= 2 ^ 63)%N ->
  computeCenters tess (setupBoundaryCells m) = computeCenters tess m.
Proof.
  intros HD HC. pose proof (setup_rest m) as (D & _). unfold computeCenters.
  assert (E : edge_centers (setupBoundaryCells m) = edge_centers m).
  { unfold edge_centers. rewrite setup_n_elems. apply mapM_ext. intros e _. rewrite setup_edge_pts. reflexivity. }
  rewrite E. apply bind_ext. intros e. rewrite D, setup_levels by (assumption || lia). reflexivity.
Qed.

Lemma setup_getCenters m cs : forall k i, getCenters (setupBoundaryCells m) cs k i = getCenters m cs k i.
Proof.
  induction k as [|k IH]; intros i; [reflexivity|]. cbn [getCenters]. destruct k.
  - rewrite setup_edge_pts. reflexivity.
  - apply bind_ext. intros c. rewrite setup_subs. apply bind_ext. intros js. apply bind_ext. intros j. rewrite IH. reflexivity.
Qed.
Lemma setup_measure_levels m cs : 1 <= m_dim m -> (N.of_nat (length (m_cells m)) <= 2 ^ 63)%N -> forall steps k sub, k + steps <= m_dim m + 1 ->
  measure_levels (setupBoundaryCells m) cs steps k sub = measure_levels m cs steps k sub.
Proof.
  intros HD HC. induction steps as [|s IH]; intros k sub Hk; [reflexivity|]. cbn [measure_levels].
  assert (E : measure_level (setupBoundaryCells m) cs k sub = measure_level m cs k sub).
  { unfold measure_level. rewrite setup_n_elems. apply mapM_ext. intros i Hi. rewrite setup_apply1 by (assumption || lia). apply bind_ext. intros calls.
    apply bind_ext. intros x. f_equal. apply foldM_ext. intros a c _. unfold measure_step. rewrite setup_getCenters. reflexivity. }
  rewrite E. apply bind_ext. intros l. rewrite IH by lia. reflexivity.
Qed.
Lemma setup_measuresN m cs : 1 <= m_dim m -> (N.of_nat (length (m_cells m)) <= 2 ^ 63)%N ->
  computeMeasuresN (setupBoundaryCells m) cs = computeMeasuresN m cs.
Proof.
  intros HD HC. pose proof (setup_rest m) as (D & _). unfold computeMeasuresN. rewrite setup_edge_lengths. apply bind_ext. intros l.
  rewrite D, setup_measure_levels by (assumption || lia). reflexivity.
Qed.
Lemma setup_measures2 m cc : (N.of_nat (length (m_cells m)) <= 2 ^ 63)%N -> computeMeasures2 (setupBoundaryCells m) cc = computeMeasures2 m cc.
Proof.
  intros HC. pose proof (setup_rest m) as (_ & _ & _ & C). unfold computeMeasures2. rewrite setup_edge_lengths. apply bind_ext. intros l. rewrite C.
  f_equal. apply mapM_ext. intros i Hi. apply in_seqN in Hi. unfold measure2. apply bind_ext. intros c. f_equal. apply setup_ring_walk; [lia|].
  intros e. rewrite setup_edge_pts. reflexivity.
Qed.
Lemma setup_measures3 m cc fc : (N.of_nat (length (m_cells m)) <= 2 ^ 63)%N -> computeMeasures3 (setupBoundaryCells m) cc fc = computeMeasures3 m cc fc.
Proof.
  intros HC. pose proof (setup_rest m) as (_ & _ & _ & C). unfold computeMeasures3. rewrite setup_edge_lengths. apply bind_ext. intros l.
  rewrite C, setup_faces, faces_after_length.
  assert (E : mapM (face_measure (setupBoundaryCells m) l fc) (seqN (length (m_faces m))) = mapM (face_measure m l fc) (seqN (length (m_faces m)))).
  { apply mapM_ext. intros f _. unfold face_measure. destruct (setup_face_vat m f) as [[-> ->]|(fa & n & -> & ->)]; [reflexivity|]. cbn [bind].
    apply bind_ext. intros c. apply foldM_ext. intros s e _. unfold face_step. rewrite setup_edge_pts. reflexivity. }
  rewrite E. apply bind_ext. intros fm. f_equal. apply mapM_ext. intros i Hi. apply in_seqN in Hi. unfold measure3. apply bind_ext. intros x. f_equal.
  apply setup_ring_walk; [lia|]. intros f. unfold cell_term. destruct (setup_face_vat m f) as [[-> ->]|(fa & n & -> & ->)]; [reflexivity|]. cbn [bind f_subs face_after].
  apply bind_ext. intros e0. rewrite setup_edge_pts. reflexivity.
Qed.

(** The deciding cell of the normals. *)
Lemma setup_side m (cc : list (vec K)) f n : (N.of_nat (length cc) <= 2 ^ 63)%N ->
  snd (side_cell (f_conn (face_after n f))) = snd (side_cell (f_conn f)) /\
  vat cc (fst (side_cell (f_conn (face_after n f)))) = vat cc (fst (side_cell (f_conn f))).
Proof.
  intros HC.
  assert (B : forall x, isBoundaryIndex 64 (bcode x) = true) by (intros x; apply (isBoundary_make 64 (N.of_nat x))).
  assert (T : forall i, (2 ^ 63 <= i)%N -> vat cc i = Throw) by (intros i Hi; unfold vat; destruct (N.ltb_spec i (N.of_nat (length cc))); [lia|reflexivity]).
  assert (BG : forall x, (2 ^ 63 <= bcode x)%N).
  { intros x. destruct (N.le_gt_cases (2 ^ 63) (bcode x)) as [|H]; [assumption|]. exfalso. exact (bcode_not_plain x _ H eq_refl). }
  unfold side_cell, face_after, cellOn. cbn [f_conn bc cellLeft cellRight].
  destruct (N.eqb_spec (cellLeft (bc (f_conn f))) INVALID) as [El|Nl].
  - rewrite El, B, orb_true_r. change (isInvalidIndex 64 INVALID) with true. cbn [orb fst snd]. split; [reflexivity|].
    destruct (N.eqb_spec (cellRight (bc (f_conn f))) INVALID) as [Er|Nr]; [|reflexivity]. rewrite Er, !T; [reflexivity| |apply BG].
    clear. intros H. vm_compute in H. discriminate.
  - destruct (isInvalidIndex 64 _ || isBoundaryIndex 64 _); cbn [fst snd]; [|auto]. split; [reflexivity|].
    destruct (N.eqb_spec (cellRight (bc (f_conn f))) INVALID) as [Er|Nr]; [|reflexivity]. rewrite Er, !T; [reflexivity| |apply BG].
    clear. intros H. vm_compute in H. discriminate.
Qed.
Lemma setup_normals3 m cc fc : (N.of_nat (length cc) <= 2 ^ 63)%N -> computeNormals3 (setupBoundaryCells m) cc fc = computeNormals3 m cc fc.
Proof.
  intros HC. unfold computeNormals3. rewrite setup_faces, faces_after_length. apply mapM_ext. intros f _. unfold normal3.
  destruct (setup_face_vat m f) as [[-> ->]|(fa & n & -> & ->)]; [reflexivity|]. cbn [bind]. destruct (setup_side m cc fa n HC) as [E1 E2].
  destruct (side_cell (f_conn fa)) as [c s]. destruct (side_cell (f_conn (face_after n fa))) as [c' s']. cbn [fst snd] in E1, E2. subst s'. rewrite E2.
  apply bind_ext. intros x. cbn [f_subs face_after]. apply bind_ext. intros e0. rewrite setup_edge_pts. reflexivity.
Qed.
Lemma setup_normals3_tess m cc fc : m_dim m = 3 -> (N.of_nat (length cc) <= 2 ^ 63)%N ->
  computeNormals3_tess (setupBoundaryCells m) cc fc = computeNormals3_tess m cc fc.
Proof.
  intros D HC. unfold computeNormals3_tess. rewrite setup_faces, faces_after_length. apply mapM_ext. intros f Hf. apply in_seqN in Hf. unfold normal3_tess.
  assert (V : forall l : list Face, length l = length (m_faces m) -> vidx l f = vat l f).
  { intros l L. unfold vat. unfold vidx. rewrite L. destruct (N.ltb_spec f (N.of_nat (length (m_faces m)))); [|lia]. destruct (nth_error l (N.to_nat f)) eqn:En; [reflexivity|].
    apply nth_error_None in En. lia. }
  rewrite !V; [|reflexivity|rewrite setup_faces; apply faces_after_length].
  destruct (setup_face_vat m f) as [[-> ->]|(fa & n & -> & ->)]; [reflexivity|]. cbn [bind]. destruct (setup_side m cc fa n HC) as [E1 E2].
  destruct (side_cell (f_conn fa)) as [c s]. destruct (side_cell (f_conn (face_after n fa))) as [c' s']. cbn [fst snd] in E1, E2. subst s'. rewrite E2.
  apply bind_ext. intros x. apply bind_ext. intros c0. pose proof (setup_apply1_low m 2 f ltac:(lia) ltac:(lia)) as EA; cbn [Nat.sub] in EA; rewrite EA; clear EA. apply bind_ext. intros calls. f_equal.
  apply foldM_ext. intros a e _. unfold tess_normal_step. rewrite setup_edge_pts. reflexivity.
Qed.
Lemma setup_normals2 m : computeNormals2 (setupBoundaryCells m) = computeNormals2 m.
Proof. unfold computeNormals2. rewrite setup_n_elems. apply mapM_ext. intros e _. rewrite setup_edge_pts. reflexivity. Qed.
Lemma setup_normalsN m cs : (N.of_nat (length (nth (m_dim m - 1) cs [])) <= 2 ^ 63)%N ->
  computeNormalsN (setupBoundaryCells m) cs = computeNormalsN m cs.
Proof.
  intros HC. pose proof (setup_rest m) as (D & _). unfold computeNormalsN. rewrite setup_faces, faces_after_length. apply mapM_ext. intros f _. unfold normalN.
  destruct (setup_face_vat m f) as [[-> ->]|(fa & n & -> & ->)]; [reflexivity|]. cbn [bind]. destruct (setup_side m _ fa n HC) as [E1 E2].
  destruct (side_cell (f_conn fa)) as [c s]. destruct (side_cell (f_conn (face_after n fa))) as [c' s']. cbn [fst snd] in E1, E2. subst s'. rewrite D, E2.
  apply bind_ext. intros x. rewrite setup_getCenters. reflexivity.
Qed.
End Kept.

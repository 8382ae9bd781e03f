(** Theorems about the measures of planar meshes: C45. Exact real arithmetic. *)
From Coq Require Import Reals Lra Permutation.
From Verif Require Import P_Base M_Conn M_Index M_Mesh M_Apply S_Mesh P_Apply M_Vec S_Vec P_Vec M_Geom S_Geom P_Geom S_Polygon P_Polygon Ex_Mesh Ex_Geom T_Dist.
Local Open Scope R_scope.

Lemma triangle2_area (c a b : point) : triangle2 (K := numR) c a b = Rabs (area2 c a b) / 2.
Proof.
  unfold triangle2, half, two, co. cbn [nmul nabs ndiv nadd none_ nsub nzero numR].
  assert (E : (nth 0 c 0 - nth 0 a 0) * (nth 1 b 0 - nth 1 a 0) - (nth 1 c 0 - nth 1 a 0) * (nth 0 b 0 - nth 0 a 0) = - area2 c a b)
    by (unfold area2, det2, px, py; ring).
  nr. rewrite E, Rabs_Ropp. field.
Qed.
Lemma face_edges (m : Mesh point) fs : geo_mesh m -> m_dim m = 2%nat -> (forall f, In f fs -> (f < N.of_nat (length (m_faces m)))%N) ->
  exists es, Forall2 (fun f e => edge_points m f (fst e) (snd e)) fs es.
Proof.
  intros G D. assert (F : n_elems m 1 = length (m_faces m)) by (pose proof (n_elems_face m) as F; nr; rewrite D in F; apply F; lia).
  induction fs as [|f fs IH]; intros H; [exists []; constructor|].
  destruct IH as (es & He); [intros; apply H; right; assumption|].
  destruct (edge_points_total m f G) as (a & b & Hab); [rewrite F; apply H; left; reflexivity|].
  exists ((a, b) :: es). constructor; assumption.
Qed.
Lemma measure2_ok (m : Mesh point) cc i c fs es : ring m i fs -> nth_error cc (N.to_nat i) = Some c ->
  Forall2 (fun f e => edge_points m f (fst e) (snd e)) fs es ->
  measure2 (K := numR) m cc i = Ok (Rsum (map (fun e => Rabs (area2 c (fst e) (snd e)) / 2) es)).
Proof.
  intros HR Hc HF. unfold measure2. apply vat_ok in Hc. nr. rewrite Hc. cbn [bind].
  rewrite (ring_walk_mapM m i _ fs (map (fun e => Rabs (area2 c (fst e) (snd e)) / 2) es) HR).
  - cbn [bind]. f_equal. apply fold_Rsum.
  - clear HR. induction HF as [|f e fs es He HF IH]; constructor; [|exact IH].
    apply ends_edge in He. nr. rewrite He. cbn [bind]. f_equal. apply triangle2_area.
Qed.

(** C45. computeMeasures of a planar mesh with cell centres [cc] succeeds. An edge gets its length. A cell with centre c gets
    the sum of the areas of the triangles spanned by c and its edges [es]. If the edges are those of a closed polygon with the
    vertices vs (in any order and direction), this is never less than the area of the polygon, and equal to it when all the
    triangles (c, edge) have the same orientation along the polygon, i.e. when the polygon is star-shaped around c. *)
Theorem C45_measures2 : forall m cc, geo_mesh m -> m_dim m = 2%nat -> length cc = length (m_cells m) ->
  exists ls As, computeMeasures2 (K := numR) m cc = Ok (ls, As) /\ length ls = length (m_faces m) /\ length As = length (m_cells m) /\
  (forall e a b l, edge_points m e a b -> nth_error ls (N.to_nat e) = Some l -> l = dist a b) /\
  (forall i c fs es A, nth_error cc (N.to_nat i) = Some c -> ring m i fs -> Forall2 (fun f e => edge_points m f (fst e) (snd e)) fs es ->
     nth_error As (N.to_nat i) = Some A ->
     A = Rsum (map (fun e => Rabs (area2 c (fst e) (snd e)) / 2) es) /\
     forall vs, traces es (cycle_edges vs) ->
       Rabs (shoelace vs) <= A /\
       ((forall e, In e (cycle_edges vs) -> 0 <= area2 c (fst e) (snd e)) \/
        (forall e, In e (cycle_edges vs) -> area2 c (fst e) (snd e) <= 0) -> A = Rabs (shoelace vs))).
Proof.
  intros m cc G D Lcc.
  assert (F : n_elems m 1 = length (m_faces m)) by (pose proof (n_elems_face m) as F; nr; rewrite D in F; apply F; lia).
  destruct (table_ok (fun e => ab <- edge_pts (K := numR) m e ;; Ok (normEuclid (K := numR) (vsub (K := numR) (fst ab) (snd ab))))
    (fun e l => forall a b, edge_points m e a b -> l = dist a b) (n_elems m 1)) as (ls & E1 & L1 & H1 & _).
  { intros e He. destruct (edge_points_total m e G He) as (a & b & Hab). exists (dist a b). split.
    - apply ends_edge in Hab. nr. rewrite Hab. cbn [bind]. f_equal. apply norm_dist.
    - intros a' b' Hab'. destruct (edge_points_det _ _ _ _ _ _ Hab Hab') as [-> ->]. reflexivity. }
  destruct (table_ok (measure2 (K := numR) m cc)
    (fun i A => forall c fs es, nth_error cc (N.to_nat i) = Some c -> ring m i fs -> Forall2 (fun f e => edge_points m f (fst e) (snd e)) fs es ->
       A = Rsum (map (fun e => Rabs (area2 c (fst e) (snd e)) / 2) es)) (length (m_cells m))) as (As & E2 & L2 & H2 & _).
  { intros i Hi. destruct (wf_ring _ (geo_wf _ G) i Hi) as (fs & HR).
    destruct (nth_error cc (N.to_nat i)) as [c|] eqn:Hc; [|apply nth_error_None in Hc; nr; lia].
    destruct (face_edges m fs G D) as (es & HF); [intros f Hf; eapply ring_lt; eassumption|].
    eexists. split; [apply (measure2_ok m cc i c fs es HR Hc HF)|].
    intros c' fs' es' Hc' HR' HF'. pose proof (measure2_ok m cc i c fs es HR Hc HF) as Q1.
    assert (c' = c) by congruence. subst c'. pose proof (measure2_ok m cc i c fs' es' HR' Hc HF') as Q2.
    pose proof (eq_trans (eq_sym Q1) Q2) as Q. injection Q. auto. }
  exists ls, As. splits.
  - unfold computeMeasures2, edge_lengths. nr. refine (eq_trans (f_equal (fun o => bind o _) E1) _). cbn [bind].
    refine (eq_trans (f_equal (fun o => bind o _) E2) _). reflexivity.
  - rewrite L1. exact F.
  - exact L2.
  - intros e a b l Hab Hl. apply (H1 e l Hl a b Hab).
  - intros i c fs es A Hc HR HF HA. pose proof (H2 i A HA c fs es Hc HR HF) as ->. split; [reflexivity|].
    intros vs HT. apply (fan_bounds c es vs HT).
Qed.
Print Assumptions C45_measures2.

(** Non-vacuity: the first of two triangles, listed edges 0->1, 1->2, 2->0; centre inside. *)
Example C45_instance : exists fs es, ring trianglesR 0 fs /\ Forall2 (fun f e => edge_points trianglesR f (fst e) (snd e)) fs es /\
  traces es (cycle_edges [[0;0];[1;0];[0;1]]) /\
  (forall e, In e (cycle_edges [[0;0];[1;0];[0;1]]) -> 0 <= area2 [1/3;1/3] (fst e) (snd e)) /\
  shoelace [[0;0];[1;0];[0;1]] = 1/2.
Proof.
  exists [0;1;2]%N, [([0;0],[1;0]); ([1;0],[0;1]); ([0;1],[0;0])]. splits.
  - apply ring_iff. vm_compute. reflexivity.
  - repeat constructor; eexists _, _; splits; reflexivity.
  - exists [([0;0],[1;0]); ([1;0],[0;1]); ([0;1],[0;0])]. split; [apply Permutation_refl|]. repeat constructor; auto.
  - intros e H. simpl in H. repeat destruct H as [<-|H]; try (unfold area2, det2, px, py; simpl; lra).
  - unfold shoelace, px, py. simpl. lra.
Qed.

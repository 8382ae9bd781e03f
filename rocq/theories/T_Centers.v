(** Theorems about element centres: C46. Exact real arithmetic ([numR]). *)
From Coq Require Import Reals Lra.
From Verif Require Import P_Base M_Conn M_Mesh M_Apply S_Mesh P_Apply M_Vec S_Vec M_Geom S_Geom P_Geom P_Centers P_Tri Ex_Geom.
Local Open Scope R_scope.

(** C46. On a well formed mesh of any dimension whose elements have non-empty boundaries computeCenters
    succeeds and gives midpoints of edges and means of the boundary elements' centres; the tables are
    determined by this. *)
Theorem C46_centers : forall m, geo_mesh m -> no_empty m ->
  exists cs, computeCenters (K := numR) false m = Ok cs /\ centers_spec m cs /\
             forall cs', centers_spec m cs' -> cs' = cs.
Proof.
  intros m G HN. pose proof (wf_dim _ (geo_wf _ G)) as HD.
  destruct (edge_centers_ok m G) as (e & E & L & Hp & Hm).
  destruct (center_levels_ok m false G HN (m_dim m - 1) 2 e) as (tabs & E2 & L2 & HL); try assumption; try lia; try discriminate.
  assert (S : centers_spec m (e :: tabs)) by (apply levels_centers_spec; try assumption; lia).
  exists (e :: tabs). split.
  - unfold computeCenters. P_Vec.nr. rewrite E. cbn [bind]. refine (eq_trans (f_equal (fun o => bind o _) E2) _). reflexivity.
  - split; [assumption|]. intros cs' S'. eapply centers_unique; eassumption.
Qed.
Print Assumptions C46_centers.

(** C46. Moving all vertices by a vector moves all centres by it. *)
Theorem C46_translation : forall m t cs, geo_mesh m -> no_empty m -> length t = m_dim m ->
  computeCenters (K := numR) false m = Ok cs ->
  computeCenters (K := numR) false (translate t m) = Ok (map (map (shift t)) cs).
Proof.
  intros m t cs G HN Ht E. destruct (C46_centers m G HN) as (cs0 & E0 & S0 & _).
  assert (cs0 = cs) by (pose proof (eq_trans (eq_sym E0) E) as Q; injection Q; auto). subst cs0.
  assert (G' : geo_mesh (translate t m)) by (apply geo_translate; assumption).
  assert (HN' : no_empty (translate t m)) by exact HN.
  destruct (C46_centers _ G' HN') as (cs' & E' & S' & U').
  rewrite (U' _ (centers_translate t m cs Ht HN G S0)). exact E'.
Qed.
Print Assumptions C46_translation.

(** C46. A centre lies in every half space that contains the vertices of its element (so in their convex
    hull, in particular in their bounding box). *)
Theorem C46_hull : forall m cs k i c w b, geo_mesh m -> no_empty m -> length w = m_dim m ->
  computeCenters (K := numR) false m = Ok cs -> (1 <= k <= m_dim m)%nat -> at_ cs k i = Some c ->
  (forall v p, incident m k 0 i v -> nth_error (m_verts m) (N.to_nat v) = Some p -> sprod p w <= b) ->
  sprod c w <= b.
Proof.
  intros m cs k i c w b G HN Hw E Hk Hc Hv. destruct (C46_centers m G HN) as (cs0 & E0 & S0 & _).
  assert (cs0 = cs) by (pose proof (eq_trans (eq_sym E0) E) as Q; injection Q; auto). subst cs0.
  eapply center_halfspace; eassumption.
Qed.
Print Assumptions C46_hull.

(** C46. METHOD_TESSELLATED: for dimensions other than three nothing changes; in a spatial mesh the centre
    of a face is the centre of gravity of the triangles (mean of the edge midpoints, edge), when they have
    an area. *)
Theorem C46_tessellated : forall m, geo_mesh m -> no_empty m ->
  (m_dim m <> 3%nat -> computeCenters (K := numR) true m = computeCenters (K := numR) false m) /\
  (m_dim m = 3%nat -> exists es fs cs, computeCenters (K := numR) true m = Ok [es; fs; cs] /\
     length es = n_elems m 1 /\ length fs = n_elems m 2 /\ length cs = n_elems m 3 /\
     (forall e a b c, edge_points m e a b -> nth_error es (N.to_nat e) = Some c -> is_mean 3 [a; b] c) /\
     (forall i js ps c0 tris c, children m 2 i js -> Forall2 (fun e p => nth_error es (N.to_nat e) = Some p) js ps ->
        is_mean 3 ps c0 ->
        Forall2 (fun e t => edge_points m e (snd (fst t)) (snd t) /\ fst (fst t) = c0 /\ c0 <> snd (fst t)) js tris ->
        Rsum (map tri_S tris) <> 0 -> nth_error fs (N.to_nat i) = Some c -> is_centroid 3 tris c) /\
     (forall i js c, children m 3 i js -> nth_error cs (N.to_nat i) = Some c ->
        exists ps, Forall2 (fun f p => nth_error fs (N.to_nat f) = Some p) js ps /\ is_mean 3 ps c)).
Proof.
  intros m G HN. pose proof (wf_dim _ (geo_wf _ G)) as HD.
  destruct (edge_centers_ok m G) as (e & E & L & Hp & Hm). split.
  - intros D.
    destruct (center_levels_ok m true G HN (m_dim m - 1) 2 e) as (tabs & E2 & L2 & HL); try assumption; try lia.
    destruct (C46_centers m G HN) as (cs0 & E0 & S0 & U0). rewrite E0.
    assert (S : centers_spec m (e :: tabs)) by (apply levels_centers_spec; try assumption; lia).
    rewrite <- (U0 _ S). unfold computeCenters. P_Vec.nr. rewrite E. cbn [bind]. refine (eq_trans (f_equal (fun o => bind o _) E2) _). reflexivity.
  - intros D. rewrite D in Hp, Hm.
    destruct (tess_face_centers_ok m e G HN D L Hp Hm) as (fs & Ef & Lf & Hpf & Hmf).
    destruct (center_level_ok m 3 fs G HN) as (cs & Ec & Lc & Hpc & Hmc); try assumption; try lia; [rewrite D; assumption|].
    exists e, fs, cs. splits; try assumption.
    + unfold computeCenters. P_Vec.nr. rewrite E. cbn [bind]. P_Vec.nr. rewrite D. cbn [Nat.sub center_levels Nat.eqb andb].
      P_Vec.nr. rewrite D. cbn [Nat.eqb andb]. rewrite Ef. cbn [bind].
      rewrite D in Ec. refine (eq_trans (f_equal (fun o => bind (bind (bind o _) _) _) Ec) _). reflexivity.
    + rewrite D in Hmc. exact Hmc.
Qed.
Print Assumptions C46_tessellated.

(** Non-vacuity: the cube of the test-suite; its centres are inside the cube. *)
Example C46_instance : geo_mesh cubeR /\ no_empty cubeR /\
  exists cs c, computeCenters (K := numR) false cubeR = Ok cs /\ at_ cs 3 0 = Some c /\ nth 0 c 0 <= 1.
Proof.
  destruct cubeR_geo as [G HN]. split; [assumption|]. split; [assumption|].
  destruct (C46_centers cubeR G HN) as (cs & E & S & _).
  assert (Hc : exists c, at_ cs 3 0 = Some c).
  { apply (at_lt cubeR cs 3 0%N S ltac:(simpl; lia)). vm_compute. reflexivity. }
  destruct Hc as (c & Hc). exists cs, c. split; [assumption|]. split; [assumption|].
  assert (H : sprod c [1; 0; 0] <= 1).
  { apply (C46_hull cubeR cs 3 0%N c [1; 0; 0] 1 G HN eq_refl E ltac:(simpl; lia) Hc).
    intros v p _ Hv. apply nth_error_In in Hv. simpl in Hv.
    repeat destruct Hv as [<-|Hv]; try (simpl; lra). }
  assert (L : length c = 3%nat).
  { unfold at_ in Hc. destruct (nth_error cs (3 - 1)) as [tab|] eqn:Et; [|discriminate].
    apply (proj2 (cs_tab _ _ S _ _ Et)). eapply nth_error_In; eassumption. }
  destruct c as [|x [|y [|z [|]]]]; try discriminate. simpl in *. lra.
Qed.

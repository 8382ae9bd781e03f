(** Theorems about moving, turning, reflecting and scaling a mesh: the tessellated centres (C106). *)
From Coq Require Import Reals Lra.
From Verif Require Import P_Base M_Conn M_Index M_Mesh M_Apply S_Mesh P_Apply M_Vec S_Vec P_Vec P_GS3 M_Geom S_Geom P_Geom P_Centers P_Normals P_Tri S_Polygon P_Polygon
  S_Flux P_Flux T_Dist T_Centers T_Volume T_Gauss3 M_Object S_Convex P_Convex P_Bnd P_Convex3 T_Convex3 S_Similar P_Similar P_Similar2 T_Similar Ex_Mesh Ex_Geom.
Local Open Scope R_scope.
Notation points d l := (Forall (fun p : point => length p = d%nat) l).

(** C106. METHOD_TESSELLATED: the centres of a spatial mesh move with it, when its faces are spread out (which they are, for example, in a mesh of
    convex polyhedra). *)
Theorem C106_centers_tess : forall m f s, 0 < s -> similarity 3 s f -> m_dim m = 3%nat -> geo_mesh m -> no_empty m -> spread m ->
  both (fun cs cs' => cs' = map (map f) cs) (computeCenters (K := numR) true m) (computeCenters (K := numR) true (image f m)).
Proof.
  intros m f s Hs HS D G HN HSp. destruct (sim_linear _ _ _ Hs HS) as (Q & HQ & HF).
  assert (HV : forall p, In p (m_verts m) -> length p = 3%nat) by (intros p Hp; rewrite <- D; exact (geo_pts _ G p Hp)).
  eapply both_mono; [|apply (computeCenters_tess_sim 3 s f Q Hs (sim_len _ _ _ HS) HQ HF m HV D eq_refl G HN HSp)].
  intros a b. apply Pt_maps.
Qed.
Print Assumptions C106_centers_tess.

(** C106. The faces of meshes of convex polyhedra are spread out. *)
Theorem C106_convex_spread : forall m poly, convex_mesh3 m poly -> spread m.
Proof.
  intros m poly X f js ps c Hch HM Hc. pose proof (cx3_geo _ _ X) as G. pose proof (cx3_dim _ _ X) as D. rewrite D in HM, Hc.
  assert (Hface : exists face, nth_error (m_faces m) (N.to_nat f) = Some face /\ f_subs face = js).
  { unfold children, subs in Hch. rewrite D in Hch. cbn in Hch. apply bind_ok in Hch as (face & Hv & Hch). exists face. split; [now apply vat_ok|].
    injection Hch as <-. reflexivity. }
  destruct Hface as (face & Hface & <-).
  assert (Hside : exists i fs, ring m i fs /\ In f fs).
  { destruct (cx3_side _ _ X face (nth_error_In _ _ Hface)) as [H|[_ H]].
    - destruct (side_ring m poly X f face _ Hface H (or_introl eq_refl)) as (fs & H1 & H2). eauto.
    - destruct (side_ring m poly X f face _ Hface H (or_intror eq_refl)) as (fs & H1 & H2). eauto. }
  destruct Hside as (i & fs & HR & Hin). destruct (cx3_cell _ _ X i fs HR) as [[_ HS] HT]. destruct (HT f face Hin Hface) as (ed & HEd & HTr). clear HT.
  assert (Lv : forall v, In v (poly i f) -> length v = 3%nat) by (intros v; apply (poly_len m poly X i fs f v HR Hin)).
  destruct (HS (poly i f)) as (Hne & n & k & Ln & Hk & Hle & (ws & w & Hws & Hw & Hlt) & HC); [apply in_map; exact Hin|].
  assert (Lw : length w = 3%nat).
  { apply in_map_iff in Hws as (g & <- & Hg). apply (poly_len m poly X i fs g w HR Hg Hw). }
  assert (Hmid : Forall2 (fun e p => is_mean 3 [fst e; snd e] p) ed ps).
  { clear - HEd HM. revert ps HM. induction HEd as [|e ab js ed Hab HEd IH]; intros ps HM; inversion HM as [|e' p js' ps' (a & b & Hab' & Hp) HM']; subst; constructor; [|now apply IH].
    destruct (edge_points_det _ _ _ _ _ _ Hab Hab') as [-> ->]. exact Hp. }
  pose proof (midpoints_mean 3 ed ps (poly i f) c Hmid HTr Hc) as Hm0. pose proof (mean_inside _ _ Hm0 Hne) as Hi0.
  destruct (f_subs face) as [|e es] eqn:Es.
  { exfalso. inversion HEd. subst ed. apply traces_length in HTr. rewrite cycle_length in HTr. apply Hne. destruct (poly i f); [reflexivity|discriminate]. }
  destruct ed as [|ab ed]; [inversion HEd|]. pose proof (proj1 (proj1 (Forall2_cons_iff _ _ _ _ _) HEd)) as Hab.
  exists e, (fst ab), (snd ab). split; [now left|]. split; [exact Hab|].
  destruct (edge_points_length _ _ _ _ G Hab) as [La Lb]. rewrite D in La, Lb.
  assert (Hv : vol6 w c (fst ab) (snd ab) <> 0).
  { assert (Or : forall e, In e (cycle_edges (poly i f)) -> 0 < vol6 w c (fst e) (snd e)) by (intros e0 Hec; exact (proj1 (proj2 (face_orient n k (poly i f) w c e0 Ln Lv Lw Hk HC Hi0 Hlt Hec)))).
    destruct (traces_out _ _ ab HTr (or_introl eq_refl)) as [W|W]; apply Or in W; [lra|]. cbn [rev_edge fst snd] in W. rewrite vol6_flip in W. lra. }
  rewrite <- (vol6_rot w (fst ab) (snd ab) c) in Hv.
  destruct (gs3_outward c (fst ab) (snd ab) w (proj1 Hm0) La Lb Lw Hv) as (e0' & e1 & e2 & n0 & n1 & n2 & _ & _ & EA & _ & _ & P).
  rewrite <- EA. lra.
Qed.
Print Assumptions C106_convex_spread.

(** The two tetrahedra of C78, turned, enlarged and moved. *)
Example C106_tess_instance : similarity 3 2 cube_motion /\ geo_mesh tetsR /\ no_empty tetsR /\ spread tetsR /\
  exists cs, computeCenters (K := numR) true tetsR = Ok cs /\ computeCenters (K := numR) true (image cube_motion tetsR) = Ok (map (map cube_motion) cs).
Proof.
  pose proof tets_convex as X. pose proof (C106_convex_spread _ _ X) as HSp. pose proof (cx3_geo _ _ X) as G. pose proof (cx3_faces _ _ X) as HN.
  pose proof (proj1 C106_instance) as S. refine (conj S (conj G (conj HN (conj HSp _)))).
  pose proof (C106_centers_tess tetsR cube_motion 2 ltac:(lra) S (cx3_dim _ _ X) G HN HSp) as B.
  destruct (proj2 (C46_tessellated _ G HN) (cx3_dim _ _ X)) as (es & fs & cs & E & _). rewrite E in B. cbn [both] in B.
  exists [es; fs; cs]. split; [exact E|].
  destruct (computeCenters (K := numR) true (image cube_motion tetsR)) as [cs'| | |]; try contradiction. now rewrite B.
Qed.

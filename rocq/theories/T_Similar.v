(** Theorems about moving, turning, reflecting and scaling a mesh (C106). *)
From Coq Require Import Reals Lra.
From Verif Require Import P_Base M_Conn M_Index M_Mesh M_Apply S_Mesh M_Vec S_Vec P_Vec M_Geom M_GeomN S_Geom P_Geom T_Dist T_Centers S_Similar P_Similar Ex_Mesh Ex_Geom.
Local Open Scope R_scope.

(** ** From the relations to the statements *)
Lemma Pt_tab d f l : Forall (fun p => length p = d) l -> Forall2 (Pt d f) l (map f l).
Proof. intros H. induction H; cbn; constructor; [now split|assumption]. Qed.
Lemma Pt_map d f l l' : Forall2 (Pt d f) l l' -> l' = map f l.
Proof. intros H. induction H as [|a b x y [_ ->] H IH]; cbn; congruence. Qed.
Lemma Pt_maps d f l l' : Forall2 (Forall2 (Pt d f)) l l' -> l' = map (map f) l.
Proof. intros H. induction H as [|a b x y A H IH]; cbn; [reflexivity|]. apply Pt_map in A. congruence. Qed.
Lemma St_map c l l' : Forall2 (St c) l l' -> l' = map (Rmult c) l.
Proof. intros H. induction H as [|a b x y -> H IH]; cbn; congruence. Qed.
Lemma F2_impl {A B} (P Q : A -> B -> Prop) l l' : (forall a b, P a b -> Q a b) -> Forall2 P l l' -> Forall2 Q l l'.
Proof. intros H F. induction F; constructor; auto. Qed.
Lemma Vt_car d s f Q c e l l' : 0 < s -> (forall p q, length p = d -> length q = d -> vs (f p) (f q) = vk (Q (vs p q)) s) -> isom d Q ->
  c <> 0 -> e = s / c -> Forall2 (Vt d Q c) l l' -> Forall2 (carried d f e) l l'.
Proof. intros Hs HF HQ Hc -> H. eapply F2_impl; [|exact H]. intros a b Hab. now apply (Vt_carried d s f Q HQ HF). Qed.
Notation points d l := (Forall (fun p : point => length p = d%nat) l).
Lemma verts_in d (m : Mesh point) : points d (m_verts m) -> forall p, In p (m_verts m) -> length p = d.
Proof. intros H. now apply Forall_forall. Qed.

(** C106. Moving, turning, reflecting and scaling all vertices does the same to the centres of the elements of every dimension. *)
Theorem C106_centers : forall m f s, 0 < s -> similarity (m_dim m) s f -> points (m_dim m) (m_verts m) -> (1 <= m_dim m)%nat -> no_empty m ->
  both (fun cs cs' => cs' = map (map f) cs) (computeCenters (K := numR) false m) (computeCenters (K := numR) false (image f m)).
Proof.
  intros m f s Hs HS HV H1 HN. destruct (sim_linear _ _ _ Hs HS) as (Q & HQ & HF).
  eapply both_mono; [|apply (computeCenters_sim (m_dim m) s f Q (sim_len _ _ _ HS) HQ HF m (verts_in _ _ HV) eq_refl H1 HN)].
  intros a b. apply Pt_maps.
Qed.
Print Assumptions C106_centers.

(** C106. The unit normals of a spatial mesh turn with it, computed by default ... *)
Theorem C106_normals3 : forall m f s cc fc, 0 < s -> similarity 3 s f -> points 3 (m_verts m) -> points 3 cc -> points 3 fc ->
  both (Forall2 (carried 3 f s)) (computeNormals3 (K := numR) m cc fc) (computeNormals3 (K := numR) (image f m) (map f cc) (map f fc)).
Proof.
  intros m f s cc fc Hs HS HV HC HFc. destruct (sim_linear _ _ _ Hs HS) as (Q & HQ & HF).
  eapply both_mono; [|apply (normals3_sim 3 s f Q Hs HQ HF m (verts_in _ _ HV)); apply Pt_tab; eassumption].
  intros a b. apply (Vt_car 3 s f Q 1 s); auto; lra.
Qed.
Print Assumptions C106_normals3.

(** ... or by tessellation. *)
Theorem C106_normals3_tess : forall m f s cc fc, 0 < s -> similarity 3 s f -> points 3 (m_verts m) -> points 3 cc -> points 3 fc ->
  both (Forall2 (carried 3 f s)) (computeNormals3_tess (K := numR) m cc fc) (computeNormals3_tess (K := numR) (image f m) (map f cc) (map f fc)).
Proof.
  intros m f s cc fc Hs HS HV HC HFc. destruct (sim_linear _ _ _ Hs HS) as (Q & HQ & HF).
  eapply both_mono; [|unfold computeNormals3_tess; apply (both_mapM (Vt 3 Q 1)); intros i _; apply (normal3_tess_sim 3 s f Q Hs HQ HF m (verts_in _ _ HV)); [reflexivity|apply Pt_tab; eassumption..]].
  intros a b. apply (Vt_car 3 s f Q 1 s); auto; lra.
Qed.
Print Assumptions C106_normals3_tess.

(** C106. The unit normals of a planar mesh lie on the right-hand side of their edges: they turn with the mesh, and a reflection (sg = -1) reverses them. *)
Theorem C106_normals2 : forall m f s sg, 0 < s -> similarity 2 s f -> sg = 1 \/ sg = -1 -> orient2 s sg f -> points 2 (m_verts m) ->
  both (Forall2 (carried 2 f (s * sg))) (computeNormals2 (K := numR) m) (computeNormals2 (K := numR) (image f m)).
Proof.
  intros m f s sg Hs HS Hsg HO HV. destruct (sim_linear _ _ _ Hs HS) as (Q & HQ & HF).
  eapply both_mono; [|apply (normals2_sim s sg f Q Hs (sim_len _ _ _ HS) HQ HF m (verts_in _ _ HV) Hsg HO)].
  intros a b. apply (Vt_car 2 s f Q sg (s * sg)); auto; destruct Hsg as [-> | ->]; lra.
Qed.
Print Assumptions C106_normals2.

(** C106. Lengths, areas and volumes are multiplied by s, s^2 and s^3, whether the orientation is kept or not. *)
Theorem C106_measures3 : forall m f s cc fc, 0 < s -> similarity 3 s f -> points 3 (m_verts m) -> points 3 cc -> points 3 fc ->
  both (fun x x' => x' = (map (Rmult s) (fst (fst x)), map (Rmult (s * s)) (snd (fst x)), map (Rmult (s * s * s)) (snd x)))
    (computeMeasures3 (K := numR) m cc fc) (computeMeasures3 (K := numR) (image f m) (map f cc) (map f fc)).
Proof.
  intros m f s cc fc Hs HS HV HC HFc. destruct (sim_linear _ _ _ Hs HS) as (Q & HQ & HF).
  eapply both_mono; [|apply (measures3_sim 3 s f Q Hs HQ HF m (verts_in _ _ HV)); apply Pt_tab; eassumption].
  intros [[a b] c] [[a' b'] c'] (H1 & H2 & H3). cbn [fst snd] in *. apply St_map in H1, H2, H3. now subst.
Qed.
Print Assumptions C106_measures3.

Theorem C106_measures2 : forall m f s cc, 0 < s -> similarity 2 s f -> points 2 (m_verts m) -> points 2 cc ->
  both (fun x x' => x' = (map (Rmult s) (fst x), map (Rmult (s * s)) (snd x)))
    (computeMeasures2 (K := numR) m cc) (computeMeasures2 (K := numR) (image f m) (map f cc)).
Proof.
  intros m f s cc Hs HS HV HC. destruct (sim_linear _ _ _ Hs HS) as (Q & HQ & HF).
  eapply both_mono; [|apply (measures2_sim s f Q Hs (sim_len _ _ _ HS) HQ HF m (verts_in _ _ HV)); apply Pt_tab; eassumption].
  intros [a b] [a' b'] (H1 & H2). cbn [fst snd] in *. apply St_map in H1, H2. now subst.
Qed.
Print Assumptions C106_measures2.

(** C106. The distances between neighbouring cells are multiplied by s, and the arrows between their centres turn with the mesh. *)
Theorem C106_distance : forall d m f s cc fc bcc, 0 < s -> similarity d s f -> points d cc -> points d fc -> points d bcc ->
  both (fun x x' => x' = map (Rmult s) x) (cellsDistance (K := numR) m cc fc bcc) (cellsDistance (K := numR) (image f m) (map f cc) (map f fc) (map f bcc)) /\
  both (Forall2 (carried d f 1)) (centerDifference (K := numR) d m cc fc bcc) (centerDifference (K := numR) d (image f m) (map f cc) (map f fc) (map f bcc)).
Proof.
  intros d m f s cc fc bcc Hs HS HC HFc HB. destruct (sim_linear _ _ _ Hs HS) as (Q & HQ & HF). split.
  - eapply both_mono; [|apply (cellsDistance_sim d s f Q Hs HQ HF m); apply Pt_tab; eassumption]. intros a b. apply St_map.
  - eapply both_mono; [|apply (centerDifference_sim d s f Q HQ HF m); apply Pt_tab; eassumption].
    intros a b. apply (Vt_car d s f Q s 1); auto; [lra|field; lra].
Qed.
Print Assumptions C106_distance.

(** C106. In any dimension, from the vertices: the centres, and with them the measures of the elements of dimension k, which are multiplied by s^k, and
    the normals, which turn with the mesh. *)
Theorem C106_any : forall m f s, 0 < s -> similarity (m_dim m) s f -> points (m_dim m) (m_verts m) -> (1 <= m_dim m)%nat -> no_empty m ->
  both (fun ms ms' => length ms' = length ms /\ forall j l, nth_error ms j = Some l -> nth_error ms' j = Some (map (Rmult (s ^ S j)) l))
    (cs <- computeCenters (K := numR) false m ;; computeMeasuresN (K := numR) m cs)
    (cs <- computeCenters (K := numR) false (image f m) ;; computeMeasuresN (K := numR) (image f m) cs) /\
  both (Forall2 (carried (m_dim m) f s))
    (cs <- computeCenters (K := numR) false m ;; computeNormalsN (K := numR) m cs)
    (cs <- computeCenters (K := numR) false (image f m) ;; computeNormalsN (K := numR) (image f m) cs).
Proof.
  intros m f s Hs HS HV H1 HN. destruct (sim_linear _ _ _ Hs HS) as (Q & HQ & HF).
  pose proof (computeCenters_sim (m_dim m) s f Q (sim_len _ _ _ HS) HQ HF m (verts_in _ _ HV) eq_refl H1 HN) as HC. split.
  - eapply both_bind; [exact HC|]. intros cs cs' Hcs.
    eapply both_mono; [|apply (measuresN_sim (m_dim m) s f Q Hs (sim_len _ _ _ HS) HQ HF m (verts_in _ _ HV)); exact Hcs].
    intros x y [L G]. split; [now symmetry|]. intros j l Hj. destruct (nth_error y j) as [l'|] eqn:E.
    + rewrite (St_map _ _ _ (G j l l' Hj E)). reflexivity.
    + exfalso. apply nth_error_None in E. assert (j < length x)%nat by (apply nth_error_Some; now rewrite Hj). lia.
  - eapply both_bind; [exact HC|]. intros cs cs' Hcs.
    eapply both_mono; [|apply (normalsN_sim (m_dim m) s f Q Hs HQ HF m (verts_in _ _ HV)); exact Hcs].
    intros a b. apply (Vt_car (m_dim m) s f Q 1 s); auto; lra.
Qed.
Print Assumptions C106_any.

(** C106. A motion that keeps the orientation keeps the side of the cell an edge is on: in the plane ... *)
Theorem C106_left2 : forall f s a b c, 0 < s -> orient2 s 1 f -> similarity 2 s f -> length a = 2%nat -> length b = 2%nat -> length c = 2%nat ->
  edgeIsLeft2 (K := numR) (f a) (f b) (f c) = edgeIsLeft2 (K := numR) a b c.
Proof.
  intros f s a b c Hs HO HS La Lb Lc. pose proof (sim_len _ _ _ HS) as HL.
  eapply bool_iff; [apply C47_edge2; auto|apply C47_edge2; auto|]. rewrite HO by assumption. assert (0 < s * s) by nra. split; intros; nra.
Qed.
Print Assumptions C106_left2.

(** ... and around the faces of a spatial mesh. *)
Theorem C106_orientation : forall m f s cc fc, 0 < s -> similarity 3 s f -> orient3 s 1 f -> points 3 (m_verts m) -> points 3 cc -> points 3 fc ->
  edgesOrientation (K := numR) (image f m) (map f cc) (map f fc) = edgesOrientation (K := numR) m cc fc.
Proof.
  intros m f s cc fc Hs HS HO HV HC HFc. symmetry. destruct (sim_linear _ _ _ Hs HS) as (Q & HQ & HF). apply both_eq. unfold edgesOrientation.
  pose proof (Pt_tab 3 f cc HC) as PC. pose proof (Pt_tab 3 f fc HFc) as PF.
  eapply both_bind; [apply (normals3_sim 3 s f Q Hs HQ HF m (verts_in _ _ HV)); eassumption|]. intros ns ns' Hns.
  change (m_faces (image f m)) with (m_faces m). eapply both_mono; [|apply (both_mapM eq)].
  - intros x y H. clear - H. induction H; congruence.
  - intros i _. eapply both_bind; [apply both_refl|]. intros face ? <-. eapply both_bind; [apply both_vidx, Hns|]. intros n n' Hn.
    eapply both_mono; [|apply (both_mapM eq)].
    + intros x y H. clear - H. induction H; congruence.
    + intros e _. eapply both_bind; [apply (edge_pts_sim 3 f m (verts_in _ _ HV))|]. intros a b [Ha Hb].
      eapply both_bind; [apply both_vidx, PF|]. intros c c' Hc. cbn [both].
      pose proof (Vt_sub 3 s f Q HF _ _ _ _ Ha Hc) as Hu. pose proof (Vt_sub 3 s f Q HF _ _ _ _ Hb Hc) as Hv.
      pose proof (Vt_len 3 Q HQ _ _ _ Hn) as Ln'. destruct Hu as [Lu Eu], Hv as [Lv Ev], Hn as [Ln En], Ha as [La Ea], Hb as [Lb Eb], Hc as [Lc Ec].
      destruct a as [a1 a2], b as [b1 b2]. cbn [fst snd] in *.
      pose proof (sim_len _ _ _ HS) as HL.
      eapply bool_iff; [apply C47_edge3; assumption|apply C47_edge3; [rewrite Ea; auto|rewrite Eb; auto|rewrite Ec; auto|exact Ln']|].
      rewrite <- !vsub_diff. rewrite Eu, Ev, En. rewrite triple_vk, (Q_triple s 1 f Q Hs HF HO HL) by assumption. rewrite Rmult_1_l, Rmult_1_r.
      assert (0 < s * s) by nra. split; intros; nra.
Qed.
Print Assumptions C106_orientation.

(** ** Such maps *)
Lemma shift_sim d t : length t = d -> similarity d 1 (shift t).
Proof.
  assert (L : forall t p : point, length t = length p -> length (shift t p) = length p).
  { induction t0 as [|x t0 IH]; intros [|y p] H; try discriminate; [reflexivity|]. cbn in *. f_equal. apply IH. lia. }
  assert (D : forall t p q : point, length t = length p -> length t = length q -> diff (shift t p) (shift t q) = diff p q).
  { induction t0 as [|x t0 IH]; intros [|y p] [|z q] H H'; try discriminate; [reflexivity|]. cbn in *. f_equal; [lra|apply IH; lia]. }
  intros Ht. constructor; intros p; [intros H; rewrite L; congruence|]. intros q Hp Hq. unfold dist. rewrite D by congruence. lra.
Qed.
Lemma scale_sim d a : 0 <= a -> similarity d a (map (Rmult a)).
Proof.
  intros Ha. constructor; intros p; [intros H; now rewrite map_length|]. intros q Hp Hq. unfold dist.
  assert (E : diff (map (Rmult a) p) (map (Rmult a) q) = vk (diff p q) a).
  { clear. revert q. induction p as [|x p IH]; intros [|y q]; try reflexivity. cbn. f_equal; [ring|apply IH]. }
  rewrite E. assert (E2 : sprod (vk (diff p q) a) (vk (diff p q) a) = a * a * sprod (diff p q) (diff p q)).
  { eapply eq_trans; [apply sprod_vscale_l|]. rewrite sprod_vscale_r. ring. }
  rewrite E2, sqrt_mult_alt by nra. now rewrite sqrt_square.
Qed.
Lemma comp_sim d a b f g : similarity d a f -> similarity d b g -> similarity d (b * a) (fun p => g (f p)).
Proof.
  intros [A1 A2] [B1 B2]. constructor; [auto|]. intros p q Hp Hq. rewrite B2, A2 by auto. ring.
Qed.
Definition turn2 (c z : R) (p : point) : point := [c * px p - z * py p; z * px p + c * py p].
Definition mirror2 (p : point) : point := [px p; - py p].
(** Turning around the third axis. *)
Definition turn3 (c z : R) (p : point) : point := [c * px p - z * py p; z * px p + c * py p; pz p].
Ltac plane p := let x := fresh "x" in let y := fresh "y" in destruct p as [|x [|y [|]]]; try discriminate.
Ltac space p := let x := fresh "x" in let y := fresh "y" in let z := fresh "z" in destruct p as [|x [|y [|z [|]]]]; try discriminate.
Lemma turn2_sim c z : c * c + z * z = 1 -> similarity 2 1 (turn2 c z) /\ orient2 1 1 (turn2 c z).
Proof.
  intros E. split; [constructor; [reflexivity|]|].
  - intros p q Hp Hq. plane p. plane q. unfold dist, turn2, px, py. cbn. rewrite Rmult_1_l. f_equal. rewrite !Rplus_0_r.
    replace (_ + _) with ((c * c + z * z) * ((x - x0) * (x - x0) + (y - y0) * (y - y0))) by ring. rewrite E. ring.
  - intros p a b Hp Ha Hb. plane p. plane a. plane b. unfold area2, det2, turn2, px, py. cbn.
    transitivity ((c * c + z * z) * ((x0 - x) * (y1 - y) - (y0 - y) * (x1 - x))); [ring|]. rewrite E. ring.
Qed.
Lemma mirror2_sim : similarity 2 1 mirror2 /\ orient2 1 (-1) mirror2.
Proof.
  split; [constructor; [reflexivity|]|].
  - intros p q Hp Hq. plane p. plane q. unfold dist, mirror2, px, py. cbn. rewrite Rmult_1_l. f_equal. ring.
  - intros p a b Hp Ha Hb. plane p. plane a. plane b. unfold area2, det2, mirror2, px, py. cbn. ring.
Qed.
Lemma turn3_sim c z : c * c + z * z = 1 -> similarity 3 1 (turn3 c z) /\ orient3 1 1 (turn3 c z).
Proof.
  intros E. split; [constructor; [reflexivity|]|].
  - intros p q Hp Hq. space p. space q. unfold dist, turn3, px, py, pz. cbn. rewrite Rmult_1_l. f_equal. rewrite !Rplus_0_r.
    transitivity ((c * c + z * z) * ((x - x0) * (x - x0) + (y - y0) * (y - y0)) + (z0 - z1) * (z0 - z1)); [ring|]. rewrite E. ring.
  - intros p a b w Hp Ha Hb Hw. space p. space a. space b. space w. unfold vol6, det3, turn3, px, py, pz. cbn.
    match goal with |- _ = _ * ?v => transitivity ((c * c + z * z) * v); [ring|rewrite E; ring] end.
Qed.

(** A cube turned by the angle with cosine 3/5, enlarged twice and moved; triangles reflected. *)
Definition cube_motion (p : point) : point := shift [1; 2; 3] (map (Rmult 2) (turn3 (3 / 5) (4 / 5) p)).
Example C106_instance : similarity 3 2 cube_motion /\ orient3 2 1 cube_motion /\
  points 3 (m_verts cubeR) /\ no_empty cubeR /\
  (exists cs, computeCenters (K := numR) false (image cube_motion cubeR) = Ok (map (map cube_motion) cs)) /\
  similarity 2 1 mirror2 /\ orient2 1 (-1) mirror2 /\ points 2 (m_verts trianglesR).
Proof.
  destruct (turn3_sim (3 / 5) (4 / 5)) as [T1 T2]; [lra|]. pose proof cubeR_geo as [GC NC].
  assert (P : points 3 (m_verts cubeR)) by (apply Forall_forall; intros p Hp; exact (geo_pts _ GC p Hp)).
  assert (S : similarity 3 2 cube_motion).
  { pose proof (comp_sim 3 1 2 (turn3 (3 / 5) (4 / 5)) (map (Rmult 2)) T1 (scale_sim 3 2 ltac:(lra))) as S1.
    pose proof (comp_sim 3 _ 1 _ (shift [1; 2; 3]) S1 (shift_sim 3 [1; 2; 3] eq_refl)) as S2. replace 2 with (1 * (2 * 1)) at 1 by ring. exact S2. }
  refine (conj S (conj _ (conj P (conj NC (conj _ (conj (proj1 mirror2_sim) (conj (proj2 mirror2_sim) _))))))).
  - intros p a b w Hp Ha Hb Hw. space p. space a. space b. space w. unfold vol6, det3, cube_motion, turn3, px, py, pz. cbn. field.
  - pose proof (C106_centers cubeR cube_motion 2 ltac:(lra) S P ltac:(cbn; lia) NC) as B.
    destruct (C46_centers cubeR GC NC) as (cs & E & _). rewrite E in B. cbn [both] in B.
    destruct (computeCenters (K := numR) false (image cube_motion cubeR)) as [cs'| | |]; try contradiction. exists cs. now rewrite B.
  - apply Forall_forall. intros p Hp. exact (geo_pts _ (proj1 trianglesR_geo) p Hp).
Qed.

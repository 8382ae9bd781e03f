(** C109: the Green-Gauss gradient is exact for affine fields. The computed measures and normals, used in the usual finite-volume
    formula with the field evaluated at the centres of the faces, give the gradient of every affine field exactly.
    Exact real arithmetic. *)
From Coq Require Import Reals Lra Permutation.
From Verif Require Import P_Base M_Conn M_Index M_Mesh M_Apply S_Mesh P_Apply M_Vec S_Vec P_Vec P_GS3 M_Geom S_Geom P_Geom P_Tri P_Normals S_Polygon P_Polygon
  P_Volume S_Flux P_Flux T_Flux Ex_Mesh Ex_Geom T_Dist T_Measure2 T_Normals T_Volume T_Gauss2 T_Gauss3 P_Centers T_Centers M_Object T_Object S_Convex P_Convex T_Convex2 T_Convex3 S_Gradient.
Local Open Scope R_scope.

(** * Two dimensions *)
(** The flux of the field y |-> (g . y + k) w through the edge e, to the right. *)
Definition edge_flux1 (g w : point) (k : R) (e : point * point) : R := edge_flux w e * ((sprod g (fst e) + sprod g (snd e)) / 2 + k).
Lemma edge_flux1_rev g w k e : edge_flux1 g w k (rev_edge e) = - edge_flux1 g w k e.
Proof. unfold edge_flux1. rewrite edge_flux_rev. unfold rev_edge. cbn [fst snd]. field. Qed.
Lemma cycle_flux1 (g w : point) (k : R) (c : point) (vs : list point) : length g = 2%nat -> length w = 2%nat -> length c = 2%nat -> (forall v, In v vs -> length v = 2%nat) ->
  Rsum (map (edge_flux1 g w k) (cycle_edges vs)) = sprod g w * shoelace vs.
Proof.
  intros Lg Lw Lc Lv.
  pose (phi := fun p : point => (sprod g p / 2 + k) * (px w * py p - py w * px p) - sprod g w * (py c * px p - px c * py p) / 2).
  rewrite (Rsum_ext _ (fun e => sprod g w / 2 * area2 c (fst e) (snd e) + (phi (snd e) - phi (fst e)))).
  - rewrite Rsum_plus, Rsum_scale, cycle_area2, (cycle_telescope phi). field.
  - intros [a b] He. apply cycle_edges_in in He as [Ha Hb]. cbn [fst snd] in *. apply Lv in Ha, Hb.
    destruct a as [|a0 [|a1 [|? ?]]]; try discriminate Ha. destruct b as [|b0 [|b1 [|? ?]]]; try discriminate Hb.
    destruct g as [|g0 [|g1 [|? ?]]]; try discriminate Lg. destruct w as [|w0 [|w1 [|? ?]]]; try discriminate Lw.
    destruct c as [|c0 [|c1 [|? ?]]]; try discriminate Lc.
    unfold edge_flux1, edge_flux, phi, area2, det2, px, py. cbn [nth fst snd sprod]. field.
Qed.

(** C109, plane. One cell, as in C74. P f is the midpoint of the face f; u(y) = g . y + k is an affine field, w a direction.
    The sum over the faces of  +-length * (normal . w) * u(P f)  is  area * (g . w). *)
Theorem C109_gradient2 : forall m cc ls As ns, geo_mesh m -> m_dim m = 2%nat -> length cc = length (m_cells m) ->
  computeMeasures2 (K := numR) m cc = Ok (ls, As) -> computeNormals2 (K := numR) m = Ok ns ->
  forall i c fs es vs A (s : N -> R) (P : N -> point), nth_error cc (N.to_nat i) = Some c -> length c = 2%nat -> ring m i fs ->
    Forall2 (fun f e => edge_points m f (fst e) (snd e)) fs es -> traces es (cycle_edges vs) ->
    (forall e, In e (cycle_edges vs) -> 0 <= area2 c (fst e) (snd e)) \/ (forall e, In e (cycle_edges vs) -> area2 c (fst e) (snd e) <= 0) ->
    (forall f a b, In f fs -> edge_points m f a b -> a <> b /\
       (s f = 1 /\ sprod (nth (N.to_nat f) ns []) c < sprod (nth (N.to_nat f) ns []) a \/
        s f = -1 /\ sprod (nth (N.to_nat f) ns []) a < sprod (nth (N.to_nat f) ns []) c)) ->
    (forall f a b, In f fs -> edge_points m f a b -> is_mean 2 [a; b] (P f)) ->
    nth_error As (N.to_nat i) = Some A ->
    forall g k w, length g = 2%nat -> length w = 2%nat ->
    Rsum (map (fun f => s f * nth (N.to_nat f) ls 0 * sprod (nth (N.to_nat f) ns []) w * (sprod g (P f) + k)) fs) = A * sprod g w.
Proof.
  intros m cc ls As ns G D Lcc EM EN i c fs es vs A s P Hc Lc HR HF HT Hor Hs HP HA g k w Lg Lw.
  destruct (C45_measures2 m cc G D Lcc) as (ls' & As' & EM' & Lls & LAs & Hl & HAr).
  pose proof (eq_trans (eq_sym EM) EM') as Q. injection Q as <- <-. clear EM'.
  destruct (C44_normals2 m G D) as (ns' & EN' & Lns & Hn). pose proof (eq_trans (eq_sym EN) EN') as Q. injection Q as <-. clear EN'.
  destruct (HAr i c fs es A Hc HR HF HA) as [_ EA]. destruct (EA vs HT) as [_ EA']. specialize (EA' Hor). clear EA.
  assert (HE : forall f e, In f fs -> edge_points m f (fst e) (snd e) ->
    length (fst e) = 2%nat /\ length (snd e) = 2%nat /\
    nth (N.to_nat f) ls 0 = dist (fst e) (snd e) /\ length (nth (N.to_nat f) ns []) = 2%nat /\
    (forall p, length p = 2%nat -> (sprod (nth (N.to_nat f) ns []) (fst e) - sprod (nth (N.to_nat f) ns []) p) * dist (fst e) (snd e) = area2 p (fst e) (snd e)) /\
    (s f = 1 /\ 0 < area2 c (fst e) (snd e) \/ s f = -1 /\ area2 c (fst e) (snd e) < 0)).
  { intros f [a b] Hf Hab. cbn [fst snd] in *. destruct (edge_points_length _ _ _ _ G Hab) as [La Lb]. rewrite D in La, Lb.
    assert (Hlt : (N.to_nat f < length (m_faces m))%nat) by (pose proof (ring_lt _ _ _ _ HR Hf); lia).
    destruct (Hs f a b Hf Hab) as [Hne Hsf].
    destruct (nth_error ls (N.to_nat f)) as [l|] eqn:El; [|apply nth_error_None in El; lia].
    destruct (nth_error ns (N.to_nat f)) as [n|] eqn:En; [|apply nth_error_None in En; lia].
    rewrite (nth_error_nth _ _ _ El). rewrite (nth_error_nth _ _ _ En) in *.
    destruct (Hn f a b n Hab En Hne) as (Ln & Hu & Ho & Hp). splits; auto.
    - apply (Hl f a b l Hab El).
    - intros p Lp. apply (Hp p Lp).
    - destruct (Hp c Lc) as [H1 H2]. destruct Hsf as [[-> Hlt']|[-> Hlt']]; [left|right]; split; try reflexivity.
      + apply H2. assumption.
      + rewrite <- H1. pose proof (dist_pos a b ltac:(congruence) Hne) as Hd.
        replace 0 with (0 * dist a b) by ring. apply Rmult_lt_compat_r; lra. }
  assert (Lvs : forall v, In v vs -> length v = 2%nat).
  { intros v Hv. destruct (cycle_start vs v Hv) as (e0 & Hb & <-). destruct HT as (ds & HPm & HFd).
    apply (Permutation_in _ HPm) in Hb. destruct (Forall2_In_r _ _ _ _ HFd Hb) as (e & He & Heb).
    destruct (Forall2_In_r _ _ _ _ HF He) as (f & Hf & Hfe). destruct (HE f e Hf Hfe) as (La & Lb & _).
    destruct Heb as [-> | ->]; [exact La|exact Lb]. }
  assert (Hnz : forall e, In e es -> area2 c (fst e) (snd e) <> 0).
  { intros e He. destruct (Forall2_In_r _ _ _ _ HF He) as (f & Hf & Hfe). destruct (HE f e Hf Hfe) as (_ & _ & _ & _ & _ & [[_ H]|[_ H]]); lra. }
  assert (Ht : exists t : R, (forall e, In e (cycle_edges vs) -> 0 <= t * area2 c (fst e) (snd e)) /\ (t = 1 \/ t = -1)).
  { destruct Hor as [H|H]; [exists 1|exists (-1)]; (split; [intros e He; specialize (H e He); lra|lra]). }
  destruct Ht as (t & Ht & Ht1).
  assert (EAt : A = t * shoelace vs).
  { rewrite EA'. assert (H0 : 0 <= t * shoelace vs).
    { assert (0 <= Rsum (map (fun e => t * area2 c (fst e) (snd e)) (cycle_edges vs))).
      { clear -Ht. induction (cycle_edges vs) as [|e l IH]; cbn [map Rsum]; [lra|].
        pose proof (Ht e (or_introl eq_refl)). specialize (IH (fun e' H' => Ht e' (or_intror H'))). lra. }
      rewrite Rsum_scale, cycle_area2 in H. lra. }
    destruct Ht1 as [-> | ->]; [rewrite Rabs_right; lra|rewrite Rabs_left1; lra]. }
  rewrite EAt, Rmult_assoc, (Rmult_comm (shoelace vs)), <- (cycle_flux1 g w k c vs Lg Lw Lc Lvs), <- Rsum_scale.
  rewrite (Rsum_Forall2 _ (fun e => (if Rlt_dec 0 (area2 c (fst e) (snd e)) then 1 else -1) * edge_flux1 g w k e) _ _ _ HF).
  - apply (traces_signed (fun e => t * edge_flux1 g w k e) _ es (cycle_edges vs)).
    + intros e. rewrite edge_flux1_rev. ring.
    + exact HT.
    + intros e d He Hd Hed. specialize (Ht d Hd). pose proof (Hnz e He) as Hz.
      destruct Hed as [-> | ->].
      * destruct (Rlt_dec 0 (area2 c (fst e) (snd e))) as [Hp|Hp]; destruct Ht1 as [-> | ->]; try reflexivity; exfalso; lra.
      * unfold rev_edge in Ht. cbn [fst snd] in Ht. rewrite area2_rev in Ht. rewrite edge_flux1_rev.
        destruct (Rlt_dec 0 (area2 c (fst e) (snd e))) as [Hp|Hp]; destruct Ht1 as [-> | ->]; try ring; exfalso; lra.
  - intros f e Hf He Hfe. pose proof (HP f _ _ Hf Hfe) as HPf. destruct (HE f e Hf Hfe) as (La & Lb & -> & Ln & Hp & Hsf). destruct e as [a b]. cbn [fst snd] in *.
    rewrite (Rmult_assoc (s f)), (normal_flux _ a b w Ln La Lb Lw Hp). unfold edge_flux1. cbn [fst snd].
    assert (EP : sprod g (P f) = (sprod g a + sprod g b) / 2).
    { destruct HPf as [LP Hm]. revert Hm LP La Lb. generalize (P f). clear -Lg.
      intros p Hm Lp La Lb. pose proof (Hm 0%nat ltac:(lia)) as H0. pose proof (Hm 1%nat ltac:(lia)) as H1.
      destruct g as [|g0 [|g1 [|? ?]]]; try discriminate Lg. destruct p as [|p0 [|p1 [|? ?]]]; try discriminate Lp.
      destruct a as [|a0 [|a1 [|? ?]]]; try discriminate La. destruct b as [|b0 [|b1 [|? ?]]]; try discriminate Lb.
      cbn [nth map Rsum length INR sprod] in *. subst p0 p1. simpl in *. lra. }
    rewrite EP. destruct (Rlt_dec 0 (area2 c a b)) as [H|H]; destruct Hsf as [[-> H']|[-> H']]; try ring; exfalso; lra.
Qed.
Print Assumptions C109_gradient2.

(** C109, plane: for a mesh of convex polygons (C77), with the centres of initializeCenters, the lengths and areas of
    computeElementMeasures and the normals of computeFaceNormals, with either method: in every cell the sum over the edges of
    +-length * (normal . w) * u(centre of the edge) is area * (grad u . w) for every affine u. *)
Theorem C109_convex2 : forall (u : UMesh numR) poly tess, let m := u_mesh u in convex_mesh2 m poly ->
  exists u' ls As ns, initializeCenters (K := numR) tess u = Ok u' /\ u_mesh u' = m /\
    elementMeasures (K := numR) tess u' = Ok [ls; As] /\ faceNormals (K := numR) tess u' = Ok ns /\
    forall i fs, ring m i fs -> 0 < shoelace (poly i) /\ nth_error As (N.to_nat i) = Some (shoelace (poly i)) /\
      forall g k w, length g = 2%nat -> length w = 2%nat ->
      Rsum (map (fun f => side_sign m f i * nth (N.to_nat f) ls 0 * sprod (nth (N.to_nat f) ns []) w *
                          (sprod g (nth (N.to_nat f) (u_fc u') []) + k)) fs) = shoelace (poly i) * sprod g w.
Proof.
  intros u poly tess m X. destruct (C77_convex2 u poly tess X) as (u' & ls & As & ns & E & Em & Lcc & EM & EN & LA & HA & Hf & _).
  pose proof X as [G D M Cell Edge]. fold m in E, Em, Lcc, HA, Hf.
  assert (HN : no_empty m) by (intros k i js Hk; cbn in Hk; nr; lia).
  exists u', ls, As, ns. splits; auto. intros i fs HR.
  assert (Hi : is_cell m i = true).
  { destruct HR as (f0 & r & _ & Hc & _). apply N.ltb_lt. assert (N.to_nat i < length (m_cells m))%nat by (apply nth_error_Some; nr; congruence). lia. }
  destruct (HA i Hi) as (c & Hc & Hm & HAi & Hpos). split; [exact Hpos|]. split; [exact HAi|]. intros g k w Lg Lw.
  destruct (C76_initializeCenters u G HN) as (cs & fc & cc & E2 & S & Hfc & _ & Lfc & _). cbv zeta in *. fold m in E2, S, Hfc, Lfc.
  pose proof (eq_trans (eq_sym E) (eq_trans (init_tess2 u tess G D) E2)) as Q. injection Q as ->. cbn [u_mesh u_fc u_cc] in *.
  assert (Dm : @m_dim (vec numR) m = 2%nat) by exact D.
  assert (EM' : computeMeasures2 (K := numR) m cc = Ok (ls, As)).
  { unfold elementMeasures in EM. cbn [u_mesh u_cc] in EM. rewrite Dm in EM. revert EM. clear. simpl.
    destruct (computeMeasures2 (K := numR) m cc) as [[a b]| | | ]; intros Q; inversion Q; reflexivity. }
  assert (EN' : computeNormals2 (K := numR) m = Ok ns).
  { unfold faceNormals in EN. cbn [u_mesh] in EN. rewrite Dm in EN. exact EN. }
  destruct (Cell i Hi) as (HX & fs' & es & HR' & HF & HT). pose proof (ring_det m i fs fs' HR HR') as <-.
  apply (C109_gradient2 m cc ls As ns G D Lcc EM' EN' i c fs es (poly i) (shoelace (poly i)) (fun f => side_sign m f i) (fun f => nth (N.to_nat f) fc []));
    auto.
  - exact (proj1 Hm).
  - left. intros e He. apply Rlt_le. eapply convex_center; eassumption.
  - intros f a b Hin Hab. destruct (ring_sides m i fs f HR Hin) as (face & Hface & Hs).
    destruct (Hf f face a b Hface Hab) as (n & En & _ & Hd & _ & _ & _ & HL & HRt). rewrite (nth_error_nth _ _ _ En).
    split; [intros ->; rewrite dist_self in Hd; lra|].
    unfold side_sign. rewrite Hface.
    destruct (N.eqb_spec (cellLeft (bc (f_conn face))) i) as [EL|NL]; destruct (N.eqb_spec (cellRight (bc (f_conn face))) i) as [ER|NR].
    + exfalso. specialize (HL c). specialize (HRt c). rewrite EL in HL. rewrite ER in HRt. specialize (HL Hc). specialize (HRt Hc). lra.
    + left. split; [ring|]. apply HL. rewrite EL. exact Hc.
    + right. split; [ring|]. apply HRt. rewrite ER. exact Hc.
    + exfalso. destruct Hs; contradiction.
  - intros f a b Hin Hab. pose proof (ring_lt m i fs f HR Hin) as Hlt.
    destruct (nth_error fc (N.to_nat f)) as [p|] eqn:Ep; [|apply nth_error_None in Ep; nr; lia]. rewrite (nth_error_nth _ _ _ Ep).
    pose proof (cs_edge _ _ S f a b p Hab) as Q. rewrite D in Q. apply Q. unfold at_. rewrite Dm in Hfc. cbn [Nat.sub] in Hfc |- *.
    nr. rewrite Hfc. exact Ep.
Qed.
Print Assumptions C109_convex2.

(** * Three dimensions *)
(** The antisymmetric part of the first moment of a triangle: it cancels along closed surfaces. *)
Definition side_moment (g w x : point) (e : point * point) : R :=
  triple (diff (fst e) x) (diff (snd e) x) w * (sprod g (diff (fst e) x) + sprod g (diff (snd e) x)) / 6.
Lemma side_moment_rev g w x e : side_moment g w x (rev_edge e) = - side_moment g w x e.
Proof. unfold side_moment, rev_edge. cbn [fst snd]. rewrite (triple_swap (diff (fst e) x) (diff (snd e) x)). field. Qed.
Lemma moment_split g w x c a b : length g = 3%nat -> length w = 3%nat -> length x = 3%nat -> length c = 3%nat -> length a = 3%nat -> length b = 3%nat ->
  triple (diff a c) (diff b c) w * ((sprod g c + sprod g a + sprod g b) / 3) =
  sprod g x * triple (diff a c) (diff b c) w + sprod g w * vol6 x c a b / 3 +
  2 * (side_moment g w x (a, b) + (side_moment g w x (c, a) - side_moment g w x (c, b))).
Proof.
  intros Lg Lw Lx Lc La Lb. destruct (len3 a La) as (a0 & a1 & a2 & ->). destruct (len3 b Lb) as (b0 & b1 & b2 & ->).
  destruct (len3 c Lc) as (c0 & c1 & c2 & ->). destruct (len3 x Lx) as (x0 & x1 & x2 & ->).
  destruct (len3 g Lg) as (g0 & g1 & g2 & ->). destruct (len3 w Lw) as (w0 & w1 & w2 & ->).
  unfold side_moment, triple, vol6, det3, px, py, pz. simpl. field.
Qed.
(** One planar face, with a weight for each of its triangles (compare face_flux). *)
Lemma face_moment x c n (s t : R) vs w (q : point * point -> R) : length x = 3%nat -> length c = 3%nat -> length n = 3%nat -> length w = 3%nat ->
  (forall v, In v vs -> length v = 3%nat /\ sprod n v = sprod n c) -> sprod n n = 1 ->
  (s = 1 /\ sprod n x < sprod n c \/ s = -1 /\ sprod n c < sprod n x) -> (t = 1 \/ t = -1) ->
  (forall e, In e (cycle_edges vs) -> 0 <= t * vol6 x c (fst e) (snd e)) ->
  s * Rsum (map (fun e => tri_area c (fst e) (snd e) * q e) (cycle_edges vs)) * sprod n w =
  t / 2 * Rsum (map (fun e => triple (diff (fst e) c) (diff (snd e) c) w * q e) (cycle_edges vs)).
Proof.
  intros Lx Lc Ln Lw Hv Hu Hs Ht Hvol.
  rewrite (Rmult_comm s), Rmult_assoc, Rmult_comm, <- !Rsum_scale. apply Rsum_ext. intros e He.
  specialize (Hvol e He). apply cycle_edges_in in He as [Ha Hb]. destruct e as [a b]. cbn [fst snd] in *.
  destruct (Hv a Ha) as [La Na]. destruct (Hv b Hb) as [Lb Nb].
  assert (Z1 : sprod n (diff a c) = 0) by (rewrite sprod_diff_r by congruence; lra).
  assert (Z2 : sprod n (diff b c) = 0) by (rewrite sprod_diff_r by congruence; lra).
  rewrite vol6_triple in Hvol by assumption.
  rewrite (triple_plane (diff a c) (diff b c) (diff c x) n) in Hvol by (auto using d3len).
  rewrite (triple_plane (diff a c) (diff b c) w n) by (auto using d3len).
  rewrite (sprod_diff_r c x) in Hvol by congruence.
  unfold tri_area. cbv zeta. rewrite <- (triple_gram (diff a c) (diff b c) n) by (auto using d3len).
  set (T := triple (diff a c) (diff b c) n) in *. change (T * T) with (Rsqr T). rewrite sqrt_Rsqr_abs.
  assert (HT : Rabs T = s * t * T).
  { assert (Hst : 0 <= s * t * T).
    { destruct (Rle_or_lt 0 (s * t * T)) as [|Hn]; [assumption|exfalso].
      assert (Hd : 0 < s * (sprod n c - sprod n x)) by (destruct Hs as [[-> H]|[-> H]]; lra).
      pose proof (Rmult_lt_compat_r _ _ _ Hd Hn) as Q.
      replace (s * t * T * (s * (sprod n c - sprod n x))) with ((s * s) * (t * (T * (sprod n c - sprod n x)))) in Q by ring.
      assert (Es : s * s = 1) by (destruct Hs as [[-> _]|[-> _]]; lra). rewrite Es in Q. lra. }
    rewrite <- (Rabs_right (s * t * T)) by lra. rewrite !Rabs_mult.
    assert (As : Rabs s = 1) by (destruct Hs as [[-> _]|[-> _]]; [apply Rabs_R1|rewrite Rabs_left; lra]).
    assert (At : Rabs t = 1) by (destruct Ht as [-> | ->]; [apply Rabs_R1|rewrite Rabs_left; lra]).
    rewrite As, At. ring. }
  rewrite HT. assert (Es : s * s = 1) by (destruct Hs as [[-> _]|[-> _]]; lra).
  transitivity ((s * s) * (t / 2 * (T * sprod n w * q (a, b)))); [field|]. rewrite Es. ring.
Qed.

(** The first moment of a closed surface in the direction w is the volume. *)
Lemma surface_moment g w x (ps : list (point * list point)) : length g = 3%nat -> length w = 3%nat -> length x = 3%nat -> closed_surface (map snd ps) ->
  (forall p, In p ps -> length (fst p) = 3%nat /\ forall v, In v (snd p) -> length v = 3%nat) ->
  Rsum (map (fun p => Rsum (map (fun e => triple (diff (fst e) (fst p)) (diff (snd e) (fst p)) w *
    ((sprod g (fst p) + sprod g (fst e) + sprod g (snd e)) / 3)) (cycle_edges (snd p)))) ps) =
  sprod g w / 3 * Rsum (map (fun p => Rsum (map (fun e => vol6 x (fst p) (fst e) (snd e)) (cycle_edges (snd p)))) ps).
Proof.
  intros Lg Lw Lx HC HL. pose proof (surface_flux w ps HC HL) as Q0.
  pose proof (closed_antisym (side_moment g w x) (map snd ps) HC (side_moment_rev g w x)) as Q.
  rewrite Rsum_flat, map_map in Q.
  transitivity (sprod g x * Rsum (map (fun p => Rsum (map (fun e => triple (diff (fst e) (fst p)) (diff (snd e) (fst p)) w) (cycle_edges (snd p)))) ps) +
    sprod g w / 3 * Rsum (map (fun p => Rsum (map (fun e => vol6 x (fst p) (fst e) (snd e)) (cycle_edges (snd p)))) ps) +
    2 * Rsum (map (fun p => Rsum (map (side_moment g w x) (cycle_edges (snd p)))) ps)).
  - rewrite <- !Rsum_scale, <- !Rsum_plus. apply Rsum_ext. intros p Hp. destruct (HL p Hp) as [Lc Lv].
    rewrite (Rsum_ext _ (fun e => (sprod g x * triple (diff (fst e) (fst p)) (diff (snd e) (fst p)) w + sprod g w / 3 * vol6 x (fst p) (fst e) (snd e)) +
      (2 * side_moment g w x e - ((2 * side_moment g w x (fst p, snd e)) - (2 * side_moment g w x (fst p, fst e)))))).
    + rewrite Rsum_plus, Rsum_plus, Rsum_minus, !Rsum_scale, (cycle_telescope (fun v => 2 * side_moment g w x (fst p, v))). ring.
    + intros [a b] He. apply cycle_edges_in in He as [Ha Hb]. cbn [fst snd] in *. rewrite (moment_split g w x) by auto. field.
  - rewrite Q0, Q. ring.
Qed.

(** What the computed normal and area of a planar face are. *)
Lemma face_facts m cc fc ls Fs Vs ns : regular3 m cc fc ->
  computeMeasures3 (K := numR) m cc fc = Ok (ls, Fs, Vs) -> computeNormals3 (K := numR) m cc fc = Ok ns ->
  forall f p, face_poly m fc f p ->
    length (fst p) = 3%nat /\ nth (N.to_nat f) fc [] = fst p /\ length (nth (N.to_nat f) ns []) = 3%nat /\
    sprod (nth (N.to_nat f) ns []) (nth (N.to_nat f) ns []) = 1 /\
    (forall v, In v (snd p) -> length v = 3%nat /\ sprod (nth (N.to_nat f) ns []) v = sprod (nth (N.to_nat f) ns []) (fst p)) /\
    nth (N.to_nat f) Fs 0 = Rsum (map (fun e => tri_area (fst p) (fst e) (snd e)) (cycle_edges (snd p))).
Proof.
  intros RG EM EN. pose proof RG as [G HN D [L1 Lcc] [L2 Lfc] Hne Hside Hpl].
  destruct (C49_measures3 m cc fc G HN D Lcc Lfc L1 L2 Hne (regular_tri m cc fc RG)) as (ls' & Fs' & Vs' & EM' & _ & LF & LV & _ & HFs & HVs).
  pose proof (eq_trans (eq_sym EM) EM') as Q. injection Q as <- <- <-. clear EM'.
  destruct (C44_normals3 m cc fc G HN D Lcc Lfc L2 Hside) as (ns' & EN' & Lns & Hn). pose proof (eq_trans (eq_sym EN) EN') as Q. injection Q as <-. clear EN'.
  intros f p HPf. pose proof (face_poly_len m fc f p G D HPf) as Lvs. destruct p as [c vs]. cbn [fst snd] in *.
    pose proof HPf as (Hc & Hcop & face & es & Hface & HEs & HTr). cbn [fst snd] in *.
    assert (Lc : length c = 3%nat) by (apply Lfc; eapply nth_error_In; exact Hc).
    assert (Hlt : (N.to_nat f < length (m_faces m))%nat) by (apply nth_error_Some; congruence).
    destruct (nth_error ns (N.to_nat f)) as [n|] eqn:En; [|apply nth_error_None in En; nr; lia].
    destruct (nth_error Fs (N.to_nat f)) as [F|] eqn:EF; [|apply nth_error_None in EF; nr; lia].
    assert (Wn : nth (N.to_nat f) ns [] = n) by (apply nth_error_nth; exact En).
    assert (WF : nth (N.to_nat f) Fs 0 = F) by (apply nth_error_nth; exact EF).
    assert (Wc : nth (N.to_nat f) fc [] = c) by (apply nth_error_nth; exact Hc).
    rewrite Wn, WF, Wc.
    assert (Hne' : exists e0 es0, f_subs face = e0 :: es0).
    { destruct (f_subs face) as [|e0 es0] eqn:Ef; [|eauto]. exfalso. apply (HN 2%nat f []); [lia| |reflexivity].
      unfold subs. rewrite D. simpl. apply vat_ok in Hface. rewrite Hface. simpl. rewrite Ef. reflexivity. }
    destruct Hne' as (e0 & es0 & Hes).
    destruct (Hside face (nth_error_In _ _ Hface)) as (y & l & Hy).
    destruct (edge_points_total m e0 G) as (a & b & Hab).
    { apply (face_subs_lt m f face G D Hface). rewrite Hes. left. reflexivity. }
    pose proof (Hpl f face y l e0 es0 a b c Hface Hy Hes Hab Hc) as HVy.
    destruct (Hn f face y l e0 es0 a b c n Hface Hy Hes Hab Hc HVy En) as (Ln & Hu & Ha & Hb & _ & Hcp).
    assert (Hab' : In (a, b) es).
    { rewrite Hes in HEs. destruct es as [|[a' b'] es]; [inversion HEs|]. apply Forall2_cons_iff in HEs as [Q _]. cbn [fst snd] in Q.
      destruct (edge_points_det _ _ _ _ _ _ Hab Q) as [-> ->]. left. reflexivity. }
    assert (Iab : In a vs /\ In b vs).
    { destruct (traces_out _ _ _ HTr Hab') as [H|H]; apply cycle_edges_in in H; simpl in *; tauto. }
    splits; auto.
    - intros v Hv. split; [auto|]. apply Hcp; [auto|]. destruct Hcop as (w & k & Lw & Hw & Hk). exists w, k. splits; auto.
      intros q [<-|[<-|[<-|[<-|[]]]]]; apply Hk; simpl; tauto.
    - rewrite (HFs f face c es F Hface Hc HEs EF). apply traces_sum; [|exact HTr].
      intros [u v]. unfold rev_edge, tri_area. cbn [fst snd]. f_equal. f_equal. rewrite (sprod_comm (diff v c) (diff u c)). ring.
  Qed.

Lemma centroid_moment g (c P : point) es : length g = 3%nat -> length c = 3%nat -> (forall e, In e es -> length (fst e) = 3%nat /\ length (snd e) = 3%nat) ->
  is_centroid 3 (map (fun e => (c, fst e, snd e)) es) P ->
  sprod g P * Rsum (map (fun e => tri_area c (fst e) (snd e)) es) =
  Rsum (map (fun e => tri_area c (fst e) (snd e) * ((sprod g c + sprod g (fst e) + sprod g (snd e)) / 3)) es).
Proof.
  intros Lg Lc Le [LP H]. pose proof (H 0%nat ltac:(lia)) as H0. pose proof (H 1%nat ltac:(lia)) as H1. pose proof (H 2%nat ltac:(lia)) as H2. clear H.
  rewrite !map_map in H0, H1, H2. unfold tri_S in *. cbn [fst snd] in *.
  destruct (len3 g Lg) as (g0 & g1 & g2 & ->). destruct (len3 P LP) as (P0 & P1 & P2 & ->). destruct (len3 c Lc) as (c0 & c1 & c2 & ->).
  cbn [nth] in H0, H1, H2.
  transitivity (g0 * (P0 * Rsum (map (fun e => tri_area [c0;c1;c2] (fst e) (snd e)) es)) + g1 * (P1 * Rsum (map (fun e => tri_area [c0;c1;c2] (fst e) (snd e)) es)) +
    g2 * (P2 * Rsum (map (fun e => tri_area [c0;c1;c2] (fst e) (snd e)) es))); [cbn [sprod]; ring|].
  rewrite H0, H1, H2, <- !Rsum_scale, <- !Rsum_plus. apply Rsum_ext. intros [a b] He. destruct (Le _ He) as [La Lb]. cbn [fst snd] in *.
  destruct (len3 a La) as (a0 & a1 & a2 & ->). destruct (len3 b Lb) as (b0 & b1 & b2 & ->). cbn [nth sprod]. field.
Qed.

(** C109, space. One cell, as in C75. P f is the centroid of the face f; u(y) = g . y + k is an affine field, w a direction.
    The sum over the faces of  +-area * (normal . w) * u(P f)  is  volume * (g . w). *)
Theorem C109_gradient3 : forall m cc fc ls Fs Vs ns, regular3 m cc fc ->
  computeMeasures3 (K := numR) m cc fc = Ok (ls, Fs, Vs) -> computeNormals3 (K := numR) m cc fc = Ok ns ->
  forall i x fs V (s : N -> R) (P : N -> point), star_cell3 m cc fc i -> nth_error cc (N.to_nat i) = Some x -> ring m i fs ->
    (forall f, In f fs ->
       s f = 1 /\ sprod (nth (N.to_nat f) ns []) x < sprod (nth (N.to_nat f) ns []) (nth (N.to_nat f) fc []) \/
       s f = -1 /\ sprod (nth (N.to_nat f) ns []) (nth (N.to_nat f) fc []) < sprod (nth (N.to_nat f) ns []) x) ->
    (forall f, In f fs -> face_centroid m fc f (P f)) ->
    nth_error Vs (N.to_nat i) = Some V ->
    forall g k w, length g = 3%nat -> length w = 3%nat ->
    Rsum (map (fun f => s f * nth (N.to_nat f) Fs 0 * sprod (nth (N.to_nat f) ns []) w * (sprod g (P f) + k)) fs) = V * sprod g w.
Proof.
  intros m cc fc ls Fs Vs ns RG EM EN i x fs V s P HSt Hx HR Hs HP HV g k w Lg Lw.
  destruct (C75_gauss3 m cc fc ls Fs Vs ns RG EM EN i x fs V s HSt Hx HR Hs HV) as [Hflux H3V].
  destruct HSt as (x' & fs' & ps & Hx' & HR' & HPs & HC & Hor).
  assert (x' = x) by congruence. subst x'. clear Hx'. pose proof (ring_det m i fs fs' HR HR') as <-. clear HR'.
  pose proof RG as [G HN D [L1 Lcc] [L2 Lfc] Hne Hside Hpl].
  assert (Lx : length x = 3%nat) by (apply Lcc; eapply nth_error_In; exact Hx).
  pose proof (face_facts m cc fc ls Fs Vs ns RG EM EN) as HE.
  assert (Ht : exists t : R, (t = 1 \/ t = -1) /\ forall p e, In p ps -> In e (cycle_edges (snd p)) -> 0 <= t * vol6 x (fst p) (fst e) (snd e)).
  { destruct Hor as [H|H]; [exists 1|exists (-1)]; (split; [lra|]); intros p e Hp He; specialize (H p e Hp He); lra. }
  destruct Ht as (t & Ht1 & Ht).
  assert (HL : forall p, In p ps -> length (fst p) = 3%nat /\ forall v, In v (snd p) -> length v = 3%nat).
  { intros p Hp. destruct (Forall2_In_r _ _ _ _ HPs Hp) as (f & Hf & Hfp). destruct (HE f p Hfp) as (A & _ & _ & _ & B & _).
    split; [exact A|]. intros v Hv. apply B. exact Hv. }
  (* the volume *)
  assert (EV : 3 * V = t / 2 * Rsum (map (fun p => Rsum (map (fun e => vol6 x (fst p) (fst e) (snd e)) (cycle_edges (snd p)))) ps)).
  { pose proof (Hflux x Lx) as H0.
    assert (E : Rsum (map (fun f => s f * nth (N.to_nat f) Fs 0 * sprod (nth (N.to_nat f) ns []) (nth (N.to_nat f) fc []) -
                                    s f * nth (N.to_nat f) Fs 0 * sprod (nth (N.to_nat f) ns []) x) fs) = 3 * V) by (rewrite Rsum_minus; lra).
    rewrite <- E, <- Rsum_scale. apply (Rsum_Forall2 _ _ _ _ _ HPs). intros f p Hf Hp Hfp. destruct (HE f p Hfp) as (Lc & Ec & Ln & Hu & Hv & EF).
    specialize (Hs f Hf). rewrite Ec in *. rewrite EF.
    rewrite <- Rmult_minus_distr_l, <- (sprod_diff_r (fst p) x) by congruence.
    rewrite (face_flux x (fst p) _ (s f) t (snd p) (diff (fst p) x)); auto using d3len.
    f_equal. apply Rsum_ext. intros e He. apply cycle_edges_in in He as [Ha Hb]. symmetry. apply vol6_triple; auto; apply Hv; assumption. }
  (* split off the constant *)
  transitivity (Rsum (map (fun f => s f * (sprod g (P f) * nth (N.to_nat f) Fs 0) * sprod (nth (N.to_nat f) ns []) w) fs) +
    k * Rsum (map (fun f => s f * nth (N.to_nat f) Fs 0 * sprod (nth (N.to_nat f) ns []) w) fs)).
  { rewrite <- Rsum_scale, <- Rsum_plus. apply Rsum_ext. intros f _. ring. }
  rewrite (Hflux w Lw), Rmult_0_r, Rplus_0_r.
  rewrite (Rsum_Forall2 _ (fun p => t / 2 * Rsum (map (fun e => triple (diff (fst e) (fst p)) (diff (snd e) (fst p)) w *
    ((sprod g (fst p) + sprod g (fst e) + sprod g (snd e)) / 3)) (cycle_edges (snd p)))) _ _ _ HPs).
  - rewrite Rsum_scale, (surface_moment g w x ps Lg Lw Lx HC HL).
    transitivity (sprod g w / 3 * (3 * V)); [rewrite EV; field|field].
  - intros f p Hf Hp Hfp. destruct (HE f p Hfp) as (Lc & Ec & Ln & Hu & Hv & EF).
    pose proof Hfp as (Hc & _ & face & es & Hface & HEs & HTr).
    pose proof (HP f Hf face es (fst p) Hface HEs Hc) as HPf.
    assert (Hsum : forall h : point * point -> R, (forall e, h (rev_edge e) = h e) -> Rsum (map h es) = Rsum (map h (cycle_edges (snd p)))) by (intros h Hh; apply traces_sum; assumption).
    assert (Hsym : forall e, tri_area (fst p) (fst (rev_edge e)) (snd (rev_edge e)) = tri_area (fst p) (fst e) (snd e)).
    { intros [u v]. unfold rev_edge, tri_area. cbn [fst snd]. f_equal. f_equal. rewrite (sprod_comm (diff v (fst p)) (diff u (fst p))). ring. }
    rewrite EF. rewrite <- (Hsum (fun e => tri_area (fst p) (fst e) (snd e)) Hsym).
    rewrite (centroid_moment g (fst p) (P f) es Lg Lc); [|intros e He|exact HPf].
    + rewrite (Hsum (fun e => tri_area (fst p) (fst e) (snd e) * ((sprod g (fst p) + sprod g (fst e) + sprod g (snd e)) / 3))).
      * apply (face_moment x (fst p) _ (s f) t (snd p) w); auto. specialize (Hs f Hf). rewrite Ec in Hs. exact Hs.
      * intros e. rewrite Hsym. unfold rev_edge. cbn [fst snd]. f_equal. field.
    + destruct (traces_out _ _ _ HTr He) as [H|H]; apply cycle_edges_in in H; cbn [rev_edge fst snd] in H; split; apply Hv; tauto.
Qed.
Print Assumptions C109_gradient3.

(** C87 - C90: the geometric functions in floating point arithmetic. *)
From Coq Require Import Reals Lra Psatz Permutation.
From Flocq Require Import Core Relative.
From Verif Require Import P_Base M_Conn M_Index M_Mesh M_Apply S_Mesh P_Apply M_Vec S_Vec P_Vec M_Geom S_Geom P_Geom S_Polygon P_Polygon P_Centers P_GS3
  M_Round S_Round P_Round P_Round2 P_Round3 Ex_Mesh Ex_Geom T_Dist T_Measure2 T_Centers.
Local Open Scope R_scope.

(** The number of roundings in the distance of two points of [d] coordinates: 3 in the plane, 4 in space. *)
Definition kd (d : nat) : nat := 2 + Nat.div2 (S d).

(** * C87: lengths, distances, planar normals *)
Lemma edge_fl rnd (m : Mesh point) e a b : edge_points m e a b -> edge_pts (K := numFl rnd) m e = Ok (a, b).
Proof. intros H. apply ends_edge in H. exact H. Qed.
Lemma dist_nonneg (a b : point) : 0 <= dist a b. Proof. apply sqrt_pos. Qed.

(** The length of every edge, in any dimension, has the relative error gamma_k. *)
Theorem C87_lengths : forall rnd u m, rounds rnd u -> geo_mesh m -> few u (kd (m_dim m)) ->
  exists ls, edge_lengths (K := numFl rnd) m = Ok ls /\ length ls = n_elems m 1 /\
  forall e a b l, edge_points m e a b -> nth_error ls (N.to_nat e) = Some l ->
    Rabs (l - dist a b) <= gam u (kd (m_dim m)) * dist a b.
Proof.
  intros rnd u m HR G F. unfold edge_lengths.
  destruct (table_ok (fun e => ab <- edge_pts (K := numFl rnd) m e ;; Ok (normEuclid (K := numFl rnd) (vsub (K := numFl rnd) (fst ab) (snd ab))))
    (fun e l => forall a b, edge_points m e a b -> Rabs (l - dist a b) <= gam u (kd (m_dim m)) * dist a b) (n_elems m 1)) as (ls & E1 & L1 & H1 & _).
  { intros e He. destruct (edge_points_total m e G He) as (a & b & Hab). eexists. split; [rewrite (edge_fl rnd m e a b Hab); reflexivity|].
    intros a' b' Hab'. destruct (edge_points_det _ _ _ _ _ _ Hab Hab') as [<- <-]. destruct (edge_points_length _ _ _ _ G Hab) as [La Lb].
    rewrite <- (Rabs_right (dist a b)) at 2 by (apply Rle_ge, dist_nonneg). apply (near_gam rnd u HR _ _ _ F). apply (dist_near rnd u HR a b (m_dim m) La Lb). }
  exists ls. split; [exact E1|]. split; [exact L1|]. intros e a b l Hab Hl. apply (H1 e l Hl a b Hab).
Qed.
Print Assumptions C87_lengths.

Lemma any_same rnd cc bcc i : any_center (K := numFl rnd) cc bcc i = any_center (K := numR) cc bcc i. Proof. reflexivity. Qed.
Lemma vat_in {A} (l : list A) i x : vat l i = Ok x -> In x l.
Proof. intros H. apply vat_ok in H. eapply nth_error_In; eassumption. Qed.
Lemma any_in cc bcc i (x : point) : any_center (K := numR) cc bcc i = Ok x -> In x cc \/ In x bcc.
Proof. unfold any_center. destruct (isBoundaryIndex 64 i); intros H; apply vat_in in H; auto. Qed.
Lemma same_lock {A B C} (P : B -> C -> Prop) (o : outcome A) f g : (forall a, o = Ok a -> orel P (f a) (g a)) -> orel P (bind o f) (bind o g).
Proof. destruct o; cbn [bind]; intros H; [apply H; reflexivity|constructor..]. Qed.
Lemma distance_lock rnd u (m : Mesh point) (cc fc bcc : list point) d : rounds rnd u ->
  (forall p, In p cc -> length p = d) -> (forall p, In p fc -> length p = d) -> (forall p, In p bcc -> length p = d) ->
  orel (Forall2 (near u (kd d))) (cellsDistance (K := numFl rnd) m cc fc bcc) (cellsDistance (K := numR) m cc fc bcc).
Proof.
  intros HR Lc Lf Lb. unfold cellsDistance, any_center. unfold vec in *. change (num (numFl rnd)) with R in *. change (num numR) with R in *. apply orel_mapM. intros f _.
  assert (N : forall p q, length p = d -> length q = d ->
    near u (kd d) (normEuclid (K := numFl rnd) (vsub (K := numFl rnd) p q)) (normEuclid (K := numR) (vsub (K := numR) p q))).
  { intros p q Hp Hq. rewrite norm_dist. apply (dist_near rnd u HR p q d Hp Hq). }
  apply same_lock. intros face _. apply same_lock. intros c Hc. assert (Lcc : length c = d) by (apply Lf; apply vidx_ok in Hc; eapply nth_error_In; eassumption).
  destruct (m_bcells m) as [|b0 bs].
  - unfold dist_plain. unfold vec. change (num (numFl rnd)) with R. change (num numR) with R. destruct (negb (isInvalidIndex 64 (cellLeft (bc (f_conn face)))) && negb (isInvalidIndex 64 (cellRight (bc (f_conn face)))))%bool.
    + apply same_lock. intros x Hx. apply same_lock. intros y Hy. constructor. apply N; apply Lc; eapply vat_in; eassumption.
    + destruct (negb (isInvalidIndex 64 (cellLeft (bc (f_conn face))))).
      * apply same_lock. intros y Hy. constructor. apply N; [apply Lc; eapply vat_in; eassumption|exact Lcc].
      * destruct (negb (isInvalidIndex 64 (cellRight (bc (f_conn face))))).
        -- apply same_lock. intros y Hy. constructor. apply N; [apply Lc; eapply vat_in; eassumption|exact Lcc].
        -- constructor. apply (near_refl rnd u HR).
  - apply same_lock. intros x Hx. apply same_lock. intros y Hy. constructor.
    apply N; [destruct (any_in _ _ _ _ Hx)|destruct (any_in _ _ _ _ Hy)]; auto.
Qed.
(** So has the distance of the cells at every face, for whatever centres are stored. *)
Theorem C87_distances : forall rnd u m cc fc bcc, rounds rnd u -> few u (kd (m_dim m)) -> length fc = length (m_faces m) ->
  (forall p, In p cc \/ In p fc \/ In p bcc -> length p = m_dim m) ->
  (forall f face c, nth_error (m_faces m) f = Some face -> nth_error fc f = Some c -> exists p q,
     side_point cc bcc (has_bcells m) c (cellLeft (bc (f_conn face))) p /\ side_point cc bcc (has_bcells m) c (cellRight (bc (f_conn face))) q) ->
  exists ds, cellsDistance (K := numFl rnd) m cc fc bcc = Ok ds /\ length ds = length (m_faces m) /\
  forall f face c p q d, nth_error (m_faces m) f = Some face -> nth_error fc f = Some c -> nth_error ds f = Some d ->
    side_point cc bcc (has_bcells m) c (cellLeft (bc (f_conn face))) p -> side_point cc bcc (has_bcells m) c (cellRight (bc (f_conn face))) q ->
    Rabs (d - dist p q) <= gam u (kd (m_dim m)) * dist p q.
Proof.
  intros rnd u m cc fc bcc HR F Lfc Ld Hs. destruct (C48_distance m cc fc bcc Lfc Hs) as (ds & E & L & H).
  pose proof (distance_lock rnd u m cc fc bcc (m_dim m) HR ltac:(auto) ltac:(auto) ltac:(auto)) as Q. rewrite E in Q. apply orel_ok in Q as (ds' & E' & HF).
  unfold vec in *. change (num (numFl rnd)) with R in *. change (num numR) with R in *.
  exists ds'. split; [exact E'|]. apply Forall2_nth in HF as [LF HF]. split; [exact (eq_trans LF L)|].
  intros f face c p q d Hf Hc Hd Hp Hq. destruct (nth_error ds f) as [d0|] eqn:Ed.
  2:{ apply nth_error_None in Ed. assert (f < length ds')%nat by (apply nth_error_Some; congruence). lia. }
  pose proof (H f face c p q d0 Hf Hc Ed Hp Hq) as ->. specialize (HF f d _ Hd Ed).
  rewrite <- (Rabs_right (dist p q)) at 2 by (apply Rle_ge, dist_nonneg). apply (near_gam rnd u HR _ _ _ F HF).
Qed.
Print Assumptions C87_distances.

(** The components of the normal of an edge of a planar mesh. *)
Theorem C87_normals2 : forall rnd u m, rounds rnd u -> geo_mesh m -> m_dim m = 2%nat -> few u 6 ->
  exists ns, computeNormals2 (K := numFl rnd) m = Ok ns /\ length ns = length (m_faces m) /\
  forall e a b n, edge_points m e a b -> nth_error ns (N.to_nat e) = Some n -> a <> b ->
    exists x y, n = [x; y] /\
      Rabs (x - (py b - py a) / dist a b) <= gam u 6 * Rabs ((py b - py a) / dist a b) /\
      Rabs (y - - (px b - px a) / dist a b) <= gam u 6 * Rabs ((px b - px a) / dist a b).
Proof.
  intros rnd u m HR G D F. unfold computeNormals2.
  assert (NE : n_elems m 1 = length (m_faces m)) by (pose proof (n_elems_face m) as Q; nr; rewrite D in Q; apply Q; lia).
  destruct (table_ok (fun e => ab <- edge_pts (K := numFl rnd) m e ;; Ok (normal2 (K := numFl rnd) (fst ab) (snd ab)))
     (fun e n => forall a b, edge_points m e a b -> a <> b -> exists x y, n = [x; y] /\
      Rabs (x - (py b - py a) / dist a b) <= gam u 6 * Rabs ((py b - py a) / dist a b) /\
      Rabs (y - - (px b - px a) / dist a b) <= gam u 6 * Rabs ((px b - px a) / dist a b)) (n_elems m 1)) as (ns & E & L & H & _).
  { intros e He. destruct (edge_points_total m e G He) as (a & b & Hab). eexists. split; [rewrite (edge_fl rnd m e a b Hab); reflexivity|].
    intros a' b' Hab' Hne. destruct (edge_points_det _ _ _ _ _ _ Hab Hab') as [<- <-]. destruct (edge_points_length _ _ _ _ G Hab) as [La Lb]. rewrite D in La, Lb.
    destruct (len2 a La) as (a0 & a1 & ->). destruct (len2 b Lb) as (b0 & b1 & ->). cbn [fst snd].
    assert (N : near u 3 (normEuclid (K := numFl rnd) (vsub (K := numFl rnd) [b0; b1] [a0; a1])) (dist [a0; a1] [b0; b1])).
    { replace (dist [a0; a1] [b0; b1]) with (dist [b0; b1] [a0; a1]); [exact (dist_near rnd u HR [b0; b1] [a0; a1] 2 eq_refl eq_refl)|].
      unfold dist. f_equal. cbn [diff sprod]. ring. }
    exists (rnd (rnd (b1 - a1) * rnd (1 / normEuclid (K := numFl rnd) (vsub (K := numFl rnd) [b0; b1] [a0; a1])))),
           (rnd (- rnd (b0 - a0) * rnd (1 / normEuclid (K := numFl rnd) (vsub (K := numFl rnd) [b0; b1] [a0; a1])))).
    split; [reflexivity|]. cbn [px py nth]. change (py [b0; b1]) with b1. change (py [a0; a1]) with a1. change (px [b0; b1]) with b0. change (px [a0; a1]) with a0.
    set (n' := normEuclid (K := numFl rnd) (vsub (K := numFl rnd) [b0; b1] [a0; a1])) in *. set (n := dist [a0; a1] [b0; b1]) in *.
    assert (I : near u 4 (rnd (1 / n')) (/ n)).
    { replace (/ n) with (1 / n) by (unfold Rdiv; ring). apply (near_rnd_of rnd u HR 3). apply (near_div rnd u HR 0 3); [apply (near_refl rnd u HR)|exact N]. }
    split.
    - apply (near_gam rnd u HR 6 _ _ F). apply (near_rnd_of rnd u HR 5). apply (near_mul rnd u HR 1 4); [apply (near_rnd rnd u HR)|exact I].
    - replace (Rabs ((b0 - a0) / n)) with (Rabs (- (b0 - a0) / n)) by (unfold Rdiv; rewrite !Rabs_mult, Rabs_Ropp; reflexivity).
      apply (near_gam rnd u HR 6 _ _ F). apply (near_rnd_of rnd u HR 5). apply (near_mul rnd u HR 1 4); [apply near_opp, (near_rnd rnd u HR)|exact I]. }
  exists ns. split; [exact E|]. split; [congruence|]. intros e a b n Hab Hn Hne. apply (H e n Hn a b Hab Hne).
Qed.
Print Assumptions C87_normals2.

(** * C88: areas of planar cells *)
(** The magnitude of the products in twice the area of the triangle c, a, b. *)
Definition weight (c a b : point) : R := Rabs ((px c - px a) * (py b - py a)) + Rabs ((py c - py a) * (px b - px a)).
Lemma measure2_fl rnd u (m : Mesh point) cc i c fs es : rounds rnd u -> ring m i fs -> nth_error cc (N.to_nat i) = Some c ->
  Forall2 (fun f e => edge_points m f (fst e) (snd e)) fs es ->
  exists A, measure2 (K := numFl rnd) m cc i = Ok A /\
    close u (7 + length es) (Rsum (map (fun e => weight c (fst e) (snd e) / 2) es)) A (Rsum (map (fun e => Rabs (area2 c (fst e) (snd e)) / 2) es)).
Proof.
  intros HR HRi Hc HF. exists (fold_left (nadd (n := numFl rnd)) (map (fun e => triangle2 (K := numFl rnd) c (fst e) (snd e)) es) 0). split.
  - unfold measure2. apply vat_ok in Hc. replace (vat (cc : list (vec (numFl rnd))) i) with (Ok (c : vec (numFl rnd))) by (symmetry; exact Hc). cbn [bind].
    rewrite (ring_walk_mapM (V := vec (numFl rnd)) m i _ fs (map (fun e => triangle2 (K := numFl rnd) c (fst e) (snd e)) es) HRi); [reflexivity|].
    clear HRi. induction HF as [|f e fs es He HF IH]; constructor; [|exact IH]. rewrite (edge_fl rnd m f (fst e) (snd e) He). reflexivity.
  - pose proof (fold_close rnd u HR 7 (map (fun e => triangle2 (K := numFl rnd) c (fst e) (snd e)) es) (map (fun e => Rabs (area2 c (fst e) (snd e)) / 2) es)
      (map (fun e => weight c (fst e) (snd e) / 2) es)) as Q. rewrite !map_length in Q.
    assert (Q0 : Forall2 (fun x' xb => close u 7 (snd xb) x' (fst xb)) (map (fun e => triangle2 (K := numFl rnd) c (fst e) (snd e)) es)
      (combine (map (fun e => Rabs (area2 c (fst e) (snd e)) / 2) es) (map (fun e => weight c (fst e) (snd e) / 2) es))).
    { clear - HR. induction es as [|e es IH]; cbn [map combine]; constructor; [exact (triangle2_close rnd u HR c (fst e) (snd e))|exact IH]. }
    specialize (Q Q0 eq_refl 7%nat 0 0 0 (le_n _)).
    rewrite !Rplus_0_l in Q. apply Q. unfold close. rewrite Rminus_diag_eq, Rabs_R0 by reflexivity. split; lra.
Qed.

(** computeMeasures of a planar mesh, for any stored cell centres: lengths as in C87; the area of a cell with n edges differs from the exact sum of the triangles
    (centre, edge) by at most gamma_(n+7) times the sum of the products the triangles are made of; if the edges are those of a polygon that is star-shaped around the stored centre
    (for a convex polygon: if the centre, however inexact, is inside), then from the area of the polygon. *)
Theorem C88_areas : forall rnd u m cc, rounds rnd u -> geo_mesh m -> m_dim m = 2%nat -> few u 3 -> length cc = length (m_cells m) ->
  exists ls As, computeMeasures2 (K := numFl rnd) m cc = Ok (ls, As) /\ length ls = length (m_faces m) /\ length As = length (m_cells m) /\
  (forall e a b l, edge_points m e a b -> nth_error ls (N.to_nat e) = Some l -> Rabs (l - dist a b) <= gam u 3 * dist a b) /\
  (forall i c fs es A, nth_error cc (N.to_nat i) = Some c -> ring m i fs -> Forall2 (fun f e => edge_points m f (fst e) (snd e)) fs es ->
     nth_error As (N.to_nat i) = Some A -> few u (7 + length es) ->
     Rabs (A - Rsum (map (fun e => Rabs (area2 c (fst e) (snd e)) / 2) es)) <= gam u (7 + length es) * Rsum (map (fun e => weight c (fst e) (snd e) / 2) es) /\
     forall vs, traces es (cycle_edges vs) ->
       (forall e, In e (cycle_edges vs) -> 0 <= area2 c (fst e) (snd e)) \/ (forall e, In e (cycle_edges vs) -> area2 c (fst e) (snd e) <= 0) ->
       Rabs (A - Rabs (shoelace vs)) <= gam u (7 + length es) * Rsum (map (fun e => weight c (fst e) (snd e) / 2) es)).
Proof.
  intros rnd u m cc HR G D F Lcc. assert (NE : n_elems m 1 = length (m_faces m)) by (pose proof (n_elems_face m) as Q; nr; rewrite D in Q; apply Q; lia).
  assert (F' : few u (kd (m_dim m))) by (rewrite D; exact F).
  destruct (C87_lengths rnd u m HR G F') as (ls & E1 & L1 & H1). rewrite D in H1. change (kd 2) with 3%nat in H1.
  destruct (table_ok (measure2 (K := numFl rnd) m cc)
    (fun i A => forall c fs es, nth_error cc (N.to_nat i) = Some c -> ring m i fs -> Forall2 (fun f e => edge_points m f (fst e) (snd e)) fs es ->
       close u (7 + length es) (Rsum (map (fun e => weight c (fst e) (snd e) / 2) es)) A (Rsum (map (fun e => Rabs (area2 c (fst e) (snd e)) / 2) es)))
    (length (m_cells m))) as (As & E2 & L2 & H2 & _).
  { intros i Hi. destruct (wf_ring _ (geo_wf _ G) i Hi) as (fs & HRi).
    destruct (nth_error cc (N.to_nat i)) as [c|] eqn:Hc; [|apply nth_error_None in Hc; unfold vec in *; change (num (numFl rnd)) with R in *; lia].
    destruct (face_edges m fs G D) as (es & HF); [intros f Hf; eapply ring_lt; eassumption|].
    destruct (measure2_fl rnd u m cc i c fs es HR HRi Hc HF) as (A & EA & HA). exists A. split; [exact EA|].
    intros c' fs' es' Hc' HR' HF'. assert (c' = c) by congruence. subst c'.
    destruct (measure2_fl rnd u m cc i c fs' es' HR HR' Hc HF') as (A' & EA' & HA'). rewrite EA in EA'. injection EA' as <-. exact HA'. }
  exists ls, As. split; [|split; [congruence|split; [exact L2|split; [exact H1|]]]].
  - unfold computeMeasures2. rewrite E1. cbn [bind]. refine (eq_trans (f_equal (fun o => bind o _) E2) _). reflexivity.
  - intros i c fs es A Hc HRi HF HA FE. pose proof (H2 i A HA c fs es Hc HRi HF) as C. pose proof (close_err rnd u HR _ _ _ _ FE C) as Q. split; [exact Q|].
    intros vs T O. destruct (fan_bounds c es vs T) as [_ FB]. rewrite <- (FB O). exact Q.
Qed.
Print Assumptions C88_areas.

(** * C90: tests of orientation *)
Lemma gtb_true a b : Rgtb a b = true <-> b < a. Proof. unfold Rgtb. destruct (Rlt_dec b a); split; intros; auto; try discriminate; lra. Qed.
(** A triangle whose area is not negligible against the products it is computed from is oriented correctly. *)
Theorem C90_edge2 : forall rnd u (a b c : point), rounds rnd u -> few u 4 -> length a = 2%nat -> length b = 2%nat -> length c = 2%nat ->
  gam u 4 * (Rabs ((px a - px c) * (py b - py c)) + Rabs ((px b - px c) * (py a - py c))) < Rabs (area2 c a b) ->
  (edgeIsLeft2 (K := numFl rnd) a b c = true <-> 0 < area2 c a b).
Proof.
  intros rnd u a b c HR F La Lb Lc H. destruct (len2 a La) as (a0 & a1 & ->). destruct (len2 b Lb) as (b0 & b1 & ->). destruct (len2 c Lc) as (c0 & c1 & ->).
  etransitivity; [apply (gtb_true _ 0)|]. apply (close_sign rnd u HR 4 _ _ _ F H).
  replace (area2 [c0; c1] [a0; a1] [b0; b1]) with ((a0 - c0) * (b1 - c1) - (b0 - c0) * (a1 - c1)) by (unfold area2, det2, px, py; simpl; ring).
  refine (close_rnd rnd u HR 3 _ _ _ _). apply (close_sub u); apply (near_close' rnd u HR); apply (prod_near rnd u HR).
Qed.
Print Assumptions C90_edge2.
(** The spatial test: the triple product (a - c) x (b - c) . n. *)
Definition weight3 (u v n : point) : R :=
  Rabs (px u * py v * pz n) + Rabs (pz u * py v * px n) + (Rabs (py u * pz v * px n) + Rabs (px u * pz v * py n)) + (Rabs (pz u * px v * py n) + Rabs (py u * px v * pz n)).
Theorem C90_edge3 : forall rnd u (a b c n : point), rounds rnd u -> few u 8 -> length a = 3%nat -> length b = 3%nat -> length c = 3%nat -> length n = 3%nat ->
  gam u 8 * weight3 (diff a c) (diff b c) n < Rabs (triple (diff a c) (diff b c) n) ->
  (edgeIsLeft3 (K := numFl rnd) a b c n = true <-> 0 < triple (diff a c) (diff b c) n).
Proof.
  intros rnd u a b c n HR F La Lb Lc Ln H. destruct (len3 a La) as (a0 & a1 & a2 & ->). destruct (len3 b Lb) as (b0 & b1 & b2 & ->).
  destruct (len3 c Lc) as (c0 & c1 & c2 & ->). destruct (len3 n Ln) as (n0 & n1 & n2 & ->).
  etransitivity; [apply (gtb_true _ 0)|]. apply (close_sign rnd u HR 8 _ _ _ F H).
  assert (T : forall x y z w p, near u 4 (rnd (rnd (rnd (x - y) * rnd (z - w)) * p)) ((x - y) * (z - w) * p)).
  { intros x y z w p. apply (near_rnd_of rnd u HR 3). apply (near_mul rnd u HR 3 0); [|apply (near_refl rnd u HR)]. apply (prod_near rnd u HR). }
  assert (S : forall i b0 res' res x y z w p x' y' z' w' p', (5 <= i)%nat -> close u i b0 res' res ->
    close u (S i) (b0 + (Rabs ((x - y) * (z - w) * p) + Rabs ((x' - y') * (z' - w') * p')))
      (rnd (res' + rnd (rnd (rnd (rnd (x - y) * rnd (z - w)) * p) - rnd (rnd (rnd (x' - y') * rnd (z' - w')) * p')))) (res + ((x - y) * (z - w) * p - (x' - y') * (z' - w') * p'))).
  { intros i bb res' res x y z w p x' y' z' w' p' Li C. apply (close_rnd rnd u HR). apply (close_add u); [exact C|]. apply (close_mono rnd u HR 5 i _ _ _ _ Li (Rle_refl _)).
    apply (close_rnd rnd u HR 4). apply (close_sub u); apply (near_close' rnd u HR); apply T. }
  assert (Z : close u 5 0 0 0) by (unfold close; rewrite Rminus_diag_eq, Rabs_R0 by reflexivity; split; lra).
  pose proof (S 5%nat _ _ _ a0 c0 b1 c1 n2 a2 c2 b1 c1 n0 ltac:(lia) Z) as S1. pose proof (S 6%nat _ _ _ a1 c1 b2 c2 n0 a0 c0 b2 c2 n1 ltac:(lia) S1) as S2.
  pose proof (S 7%nat _ _ _ a2 c2 b0 c0 n1 a1 c1 b0 c0 n2 ltac:(lia) S2) as S3.
  match type of S3 with close _ _ ?b ?x' ?x => replace (triple (diff [a0; a1; a2] [c0; c1; c2]) (diff [b0; b1; b2] [c0; c1; c2]) [n0; n1; n2]) with x by (unfold triple, det3, px, py, pz; simpl; ring);
    replace (weight3 (diff [a0; a1; a2] [c0; c1; c2]) (diff [b0; b1; b2] [c0; c1; c2]) [n0; n1; n2]) with b by (unfold weight3, px, py, pz; simpl; ring) end.
  exact S3.
Qed.
Print Assumptions C90_edge3.

(** * C89: centres *)
(** The centre of an element of dimension k of a mesh whose elements have at most n boundary elements each: every coordinate is within gamma_(4 + (k-1)(2n+2)) B of the exact mean, where B bounds
    the coordinates of the vertices. *)
Theorem C89_centers : forall rnd u m B n, rounds rnd u -> geo_mesh m -> no_empty m ->
  0 <= B -> (forall p x, In p (m_verts m) -> In x p -> Rabs x <= B) ->
  (forall k i js, (2 <= k <= m_dim m)%nat -> children m k i js -> (length js <= n)%nat) ->
  exists cs cs', computeCenters (K := numFl rnd) false m = Ok cs' /\ centers_spec m cs /\ length cs' = length cs /\
  forall k i c', (1 <= k <= m_dim m)%nat -> few u (4 + (k - 1) * (2 * n + 2)) -> at_ cs' k i = Some c' ->
    exists c, at_ cs k i = Some c /\ length c' = m_dim m /\
      forall d, Rabs (nth d c' 0 - nth d c 0) <= gam u (4 + (k - 1) * (2 * n + 2)) * B.
Proof.
  intros rnd u m B n HR G HN HB Hv Hc. destruct (C46_centers m G HN) as (cs & E & CS & _).
  assert (Hn : forall l i calls, (2 <= l <= m_dim m)%nat -> (i < N.of_nat (n_elems m l))%N -> apply1 m l (l - 1) i = Ok calls -> (length calls <= n)%nat).
  { intros l i calls Hl Hi Ha. destruct (children_total m l i (geo_wf _ G) ltac:(lia) Hi) as (js & Hj). pose proof (apply1_children m l i js ltac:(lia) Hj) as Q.
    rewrite Q in Ha. injection Ha as <-. rewrite map_length. apply (Hc l i js Hl Hj). }
  pose proof (centers_lock rnd u HR B HB n m Hv Hn) as Q. rewrite E in Q. apply orel_ok in Q as (cs' & E' & HT). exists cs, cs'. split; [exact E'|]. split; [exact CS|].
  destruct cs' as [|x' r'], cs as [|x r]; try contradiction. destruct HT as [H1 H2]. destruct (tabs_nth _ _ _ _ _ _ H2) as [L N]. split; [exact (f_equal S L)|].
  unfold vec in *. change (num (numFl rnd)) with R in *. change (num numR) with R in *.
  intros k i c' Hk F Hat. unfold at_ in Hat.
  assert (T : forall y', nth_error (x' :: r') (k - 1) = Some y' -> exists y, nth_error (x :: r) (k - 1) = Some y /\ Forall2 (vclose u (4 + (k - 1) * (2 * n + 2)) B) y' y).
  { intros y' Hy. destruct (k - 1)%nat as [|j] eqn:Ej; cbn [nth_error] in *.
    - injection Hy as <-. exists x. split; [reflexivity|]. rewrite Nat.mul_0_l, Nat.add_0_r. exact H1.
    - destruct (nth_error r j) as [y|] eqn:Er; [|apply nth_error_None in Er; assert (j < length r')%nat by (apply nth_error_Some; unfold vec in *; change (num (numFl rnd)) with R in *; congruence); lia].
      exists y. split; [reflexivity|]. specialize (N j y' y Hy Er). replace (4 + S j * (2 * n + 2))%nat with (4 + 2 * n + 2 + j * (2 * n + 2))%nat by lia. exact N. }
  destruct (nth_error (x' :: r') (k - 1)) as [y'|] eqn:Ey; [|discriminate]. destruct (T y' eq_refl) as (y & Ey2 & HF). apply Forall2_nth in HF as [LF HF].
  destruct (nth_error y (N.to_nat i)) as [c|] eqn:Ec.
  2:{ apply nth_error_None in Ec. assert (N.to_nat i < length y')%nat by (apply nth_error_Some; unfold vec in *; change (num (numFl rnd)) with R in *; congruence). lia. }
  specialize (HF _ _ _ Hat Ec). exists c. split; [unfold at_; rewrite Ey2; exact Ec|].
  pose proof (Forall2_length' _ _ _ HF) as LC. split.
  - rewrite LC. destruct (cs_tab _ _ CS (k - 1) y Ey2) as [_ Hp]. apply Hp. eapply nth_error_In; exact Ec.
  - intros d. apply Forall2_nth in HF as [_ HF]. destruct (nth_error c' d) as [z'|] eqn:Ed.
    + destruct (nth_error c d) as [z|] eqn:Ed'.
      * erewrite !nth_error_nth by eassumption. apply (close_err rnd u HR _ _ _ _ F (HF d z' z Ed Ed')).
      * apply nth_error_None in Ed'. assert (d < length c')%nat by (apply nth_error_Some; congruence). lia.
    + apply nth_error_None in Ed. rewrite !nth_overflow by lia. rewrite Rminus_diag_eq, Rabs_R0 by reflexivity. apply Rmult_le_pos; [|exact HB].
      pose proof (eps_gam rnd u HR _ F). pose proof (eps_nonneg rnd u HR (4 + (k - 1) * (2 * n + 2))). lra.
Qed.
Print Assumptions C89_centers.

(** * Instances *)
(** Rounding to nearest even with 53 bits (double, no bound on the exponent). *)
Definition double : R -> R := round radix2 (FLX_exp 53) ZnearestE.
Lemma double_rounds : rounds double (bpow radix2 (-53)).
Proof.
  split.
  - split; [apply bpow_ge_0|]. change 1 with (bpow radix2 0). apply bpow_lt. reflexivity.
  - intros x. pose proof (relative_error_N_FLX radix2 53 ltac:(reflexivity) (fun z => negb (Z.even z)) x) as H.
    change (-53)%Z with (-1 + (-53 + 1))%Z. rewrite bpow_plus. exact H.
Qed.
(** A thousand roundings are few; the bound is below 1e-15 for the length of an edge. *)
Lemma double_few k : (k <= 1000)%nat -> few (bpow radix2 (-53)) k.
Proof.
  intros H. unfold few. assert (L : INR k <= 1000) by (apply le_INR in H; replace 1000 with (INR 1000) by (rewrite INR_IZR_INZ; reflexivity); exact H).
  pose proof (pos_INR k). change (bpow radix2 (-53)) with (/ IZR (Zpower_pos 2 53)). replace (IZR (Zpower_pos 2 53)) with 9007199254740992 by reflexivity. lra.
Qed.
Lemma double_gam4 : gam (bpow radix2 (-53)) 4 < / 1000000000000000.
Proof.
  unfold gam. change (bpow radix2 (-53)) with (/ IZR (Zpower_pos 2 53)). replace (INR 4) with 4 by (simpl; ring). replace (IZR (Zpower_pos 2 53)) with 9007199254740992 by reflexivity.
  lra.
Qed.
Example C87_instance :
  rounds double (bpow radix2 (-53)) /\ geo_mesh prismsR /\ few (bpow radix2 (-53)) (kd (m_dim prismsR)) /\ gam (bpow radix2 (-53)) (kd (m_dim prismsR)) < / 1000000000000000 /\
  geo_mesh trianglesR /\ few (bpow radix2 (-53)) 10 /\
  (exists fs es, ring trianglesR 0 fs /\ Forall2 (fun f e => edge_points trianglesR f (fst e) (snd e)) fs es /\ length es = 3%nat) /\
  (forall k i js, (2 <= k <= m_dim prismsR)%nat -> children prismsR k i js -> (length js <= 6)%nat) /\ (forall p x, In p (m_verts prismsR) -> In x p -> Rabs x <= 2).
Proof.
  split; [apply double_rounds|]. split; [apply prismsR_geo|]. split; [apply double_few; apply Nat.leb_le; reflexivity|]. split; [exact double_gam4|]. split; [apply trianglesR_geo|].
  split; [apply double_few; apply Nat.leb_le; reflexivity|]. split; [|split].
  - exists [0;1;2]%N, [([0;0],[1;0]); ([1;0],[0;1]); ([0;1],[0;0])]. splits; [|repeat constructor; eexists _, _; splits; reflexivity|reflexivity].
    apply ring_iff. vm_compute. reflexivity.
  - intros k i js Hk Hc. unfold children in Hc. change (m_dim prismsR) with 3%nat in *. destruct (Nat.eqb_spec k 3) as [->|].
    + apply ring_iff in Hc. unfold ring_walk in Hc. apply bind_ok in Hc as (b & Hb & Hc). apply vat_ok in Hb.
      assert (Hi : (N.to_nat i < 2)%nat) by (change 2%nat with (length (m_cells prismsR)); apply nth_error_Some; congruence).
      assert (R : ring_walk prismsR i (fun f => Ok f) = Ok js) by (unfold ring_walk; apply (proj2 (vat_ok _ _ _)) in Hb; rewrite Hb; exact Hc).
      assert (i = 0 \/ i = 1)%N as [-> | ->] by lia; vm_compute in R; injection R as <-; simpl; lia.
    + assert (k = 2)%nat by lia. subst k. unfold subs in Hc. change (m_dim prismsR) with 3%nat in Hc. cbn [Nat.sub Nat.eqb] in Hc. apply bind_ok in Hc as (f & Hf & Hc).
      injection Hc as <-. apply vat_ok, nth_error_In in Hf. assert (Q : forallb (fun f => (length (f_subs f) <=? 6)%nat) (m_faces prismsR) = true) by reflexivity.
      rewrite forallb_forall in Q. apply Nat.leb_le, Q, Hf.
  - simpl. intros p x Hp Hx. repeat destruct Hp as [<-|Hp]; try contradiction; simpl in Hx; repeat destruct Hx as [<-|Hx]; try contradiction; unfold Rabs; destruct (Rcase_abs _); lra.
Qed.
Example C90_instance : gam (bpow radix2 (-53)) 4 * (Rabs ((1 - 0) * (1 - 0)) + Rabs ((0 - 0) * (0 - 0))) < Rabs (area2 [0; 0] [1; 0] [0; 1]) /\
  edgeIsLeft2 (K := numFl double) [1; 0] [0; 1] [0; 0] = true.
Proof.
  assert (A : area2 [0; 0] [1; 0] [0; 1] = 1) by (unfold area2, det2, px, py; simpl; ring). pose proof double_gam4.
  assert (H1 : gam (bpow radix2 (-53)) 4 * (Rabs ((1 - 0) * (1 - 0)) + Rabs ((0 - 0) * (0 - 0))) < Rabs (area2 [0; 0] [1; 0] [0; 1])).
  { rewrite A. rewrite (Rabs_right 1) by lra. replace ((1 - 0) * (1 - 0)) with 1 by ring. replace ((0 - 0) * (0 - 0)) with 0 by ring. rewrite Rabs_R0, (Rabs_right 1) by lra. lra. }
  split; [exact H1|]. apply (C90_edge2 double (bpow radix2 (-53)) [1; 0] [0; 1] [0; 0] double_rounds); try reflexivity; [apply double_few; apply Nat.leb_le; reflexivity|exact H1|lra].
Qed.

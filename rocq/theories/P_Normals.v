(** Proofs for C44: normals. *)
From Coq Require Import Reals Lra Psatz.
From Verif Require Import P_Base M_Conn M_Index P_Index M_Mesh M_Apply S_Mesh P_Apply M_Vec S_Vec P_Vec P_GS P_GS3 M_Geom S_Geom P_Geom P_Centers P_Tri.
Local Open Scope R_scope.

Lemma normal2_spec (a b : rv) : length a = 2%nat -> length b = 2%nat -> a <> b ->
  let n := normal2 (K := numR) a b in
  length n = 2%nat /\ sprod n n = 1 /\ sprod n a = sprod n b /\
  forall p, length p = 2%nat -> (sprod n a - sprod n p) * dist a b = area2 p a b.
Proof.
  intros La Lb Hne. pose proof (dist_pos a b ltac:(congruence) Hne) as Hd.
  unfold normal2. cbv zeta. rewrite norm_dist, dist_sym.
  destruct (len2 a La) as (a0 & a1 & ->). destruct (len2 b Lb) as (b0 & b1 & ->).
  assert (Hsq : dist [a0; a1] [b0; b1] * dist [a0; a1] [b0; b1] = (a0 - b0) * (a0 - b0) + (a1 - b1) * (a1 - b1)).
  { unfold dist. simpl. rewrite sqrt_sqrt; [ring|].
    pose proof (Rle_0_sqr (a0 - b0)). pose proof (Rle_0_sqr (a1 - b1)). unfold Rsqr in *. lra. }
  set (L := dist [a0; a1] [b0; b1]) in *.
  change (co (vsub (K := numR) [b0; b1] [a0; a1]) 1) with (b1 - a1). change (co (vsub (K := numR) [b0; b1] [a0; a1]) 0) with (b0 - a0).
  simpl. repeat split.
  - transitivity (((a0 - b0) * (a0 - b0) + (a1 - b1) * (a1 - b1)) / (L * L)); [field; lra|]. rewrite <- Hsq. field. lra.
  - field. lra.
  - intros p Lp. destruct (len2 p Lp) as (p0 & p1 & ->). unfold area2, det2, px, py. simpl. field. lra.
Qed.

Lemma d3_triple u v w : d3 u v w = triple u v w.
Proof. reflexivity. Qed.
Lemma vol6_d3 p a b c : length p = 3%nat -> length a = 3%nat -> length b = 3%nat -> length c = 3%nat ->
  vol6 p a b c = d3 (diff a p) (diff b p) (diff c p).
Proof.
  intros Lp La Lb Lc. destruct (len3 p Lp) as (p0 & p1 & p2 & ->). destruct (len3 a La) as (a0 & a1 & a2 & ->).
  destruct (len3 b Lb) as (b0 & b1 & b2 & ->). destruct (len3 c Lc) as (c0 & c1 & c2 & ->). reflexivity.
Qed.
Lemma sq3_zero (a b c : R) : a * a + b * b + c * c = 0 -> a = 0 /\ b = 0 /\ c = 0.
Proof.
  intros H. pose proof (Rle_0_sqr a). pose proof (Rle_0_sqr b). pose proof (Rle_0_sqr c).
  repeat split; apply Rsqr_0_uniq; unfold Rsqr in *; lra.
Qed.
(** Lagrange: Gram determinant of two vectors of the space is the square of their cross product. *)
Lemma gram_zero_d3 u v w : length u = 3%nat -> length v = 3%nat -> length w = 3%nat ->
  sprod u u * sprod v v - sprod u v * sprod u v = 0 -> d3 u v w = 0.
Proof.
  intros Lu Lv Lw. destruct (len3 u Lu) as (u0 & u1 & u2 & ->). destruct (len3 v Lv) as (v0 & v1 & v2 & ->).
  destruct (len3 w Lw) as (w0 & w1 & w2 & ->). unfold d3, det3. simpl. intros H.
  assert (E : (u1 * v2 - u2 * v1) * (u1 * v2 - u2 * v1) + (u2 * v0 - u0 * v2) * (u2 * v0 - u0 * v2) + (u0 * v1 - u1 * v0) * (u0 * v1 - u1 * v0) = 0)
    by (etransitivity; [|exact H]; ring).
  apply sq3_zero in E as (E1 & E2 & E3).
  replace (u0 * (v1 * w2 - v2 * w1) - u1 * (v0 * w2 - v2 * w0) + u2 * (v0 * w1 - v1 * w0))
    with ((u1 * v2 - u2 * v1) * w0 + (u2 * v0 - u0 * v2) * w1 + (u0 * v1 - u1 * v0) * w2) by ring.
  rewrite E1, E2, E3. ring.
Qed.

Lemma Rabs_eq_0 (r : R) : Rabs r = 0 -> r = 0.
Proof. intros H. destruct (Req_dec r 0) as [|N]; [assumption|]. apply Rabs_no_R0 in N. contradiction. Qed.
(** The third Gram-Schmidt vector of c-a, c-b, c-x. *)
Lemma gs3_outward c a b x : length c = 3%nat -> length a = 3%nat -> length b = 3%nat -> length x = 3%nat ->
  vol6 x a b c <> 0 ->
  exists e0 e1 e2 n0 n1 n2, gramSchmidtN (K := numR) [vsub (K := numR) c a; vsub (K := numR) c b; vsub (K := numR) c x] = Ok ([e0; e1; e2], [n0; n1; n2]) /\
    outward e2 c a b x /\ n0 * n1 / 2 = tri_area c a b /\ n0 * n1 * n2 = Rabs (vol6 x a b c) /\ 0 < n2 /\ 0 < n0 * n1.
Proof.
  intros Lc La Lb Lx HV. rewrite !vsub_diff.
  assert (Ld : forall p q : rv, length p = 3%nat -> length q = 3%nat -> length (diff p q) = 3%nat) by (intros; rewrite diff_length; congruence).
  assert (E3 : Rabs (d3 (diff c a) (diff c b) (diff c x)) = Rabs (vol6 x a b c)).
  { replace (d3 (diff c a) (diff c b) (diff c x)) with (vol6 x a b c); [reflexivity|].
    destruct (len3 x Lx) as (x0 & x1 & x2 & ->). destruct (len3 a La) as (a0 & a1 & a2 & ->).
    destruct (len3 b Lb) as (b0 & b1 & b2 & ->). destruct (len3 c Lc) as (c0 & c1 & c2 & ->).
    unfold vol6, d3, det3, px, py, pz. simpl. ring. }
  destruct (gs3_norms (diff c a) (diff c b) (diff c x)) as (e0 & e1 & e2 & n0 & n1 & n2 & E & P0 & P1 & P2 & Hg & Hd & L2 & Hn); auto.
  { intros Z. apply (gram_zero_d3 _ _ (diff c x)) in Z; auto. rewrite Z, Rabs_R0 in E3. symmetry in E3. apply Rabs_eq_0 in E3. contradiction. }
  rewrite E3 in Hd.
  assert (Hn2 : n2 <> 0). { intros ->. rewrite Rmult_0_r in Hd. symmetry in Hd. apply Rabs_eq_0 in Hd. contradiction. }
  destruct (Hn Hn2) as (Hu & Ha & Hb & Hx). rewrite sprod_diff_r in Ha, Hb, Hx by congruence.
  exists e0, e1, e2, n0, n1, n2. split; [exact E|]. split; [repeat split; try assumption; lra|].
  assert (0 < n0 * n1) by (apply Rmult_lt_0_compat; assumption).
  split; [|repeat split; try assumption; lra].
  unfold tri_area. cbv zeta. rewrite !(diff_neg2 _ c), <- Hg. rewrite sqrt_square by lra. reflexivity.
Qed.

(** Normals of a plane. *)
Lemma plane_orth u v w n q : length u = 3%nat -> length v = 3%nat -> length w = 3%nat -> length n = 3%nat -> length q = 3%nat ->
  sprod u u * sprod v v - sprod u v * sprod u v <> 0 -> sprod w w <> 0 ->
  sprod w u = 0 -> sprod w v = 0 -> sprod w q = 0 -> sprod n u = 0 -> sprod n v = 0 -> sprod n q = 0.
Proof.
  intros Lu Lv Lw Ln Lq HG Hw Wu Wv Wq Nu Nv.
  destruct (Req_dec (sprod n n) 0) as [Z|NZ].
  { apply sprod_zero_inv in Z. rewrite Z. apply sprod_zero_l. }
  assert (D0 : d3 u v q = 0).
  { destruct (len3 u Lu) as (u0 & u1 & u2 & ->). destruct (len3 v Lv) as (v0 & v1 & v2 & ->).
    destruct (len3 w Lw) as (w0 & w1 & w2 & ->). destruct (len3 q Lq) as (q0 & q1 & q2 & ->).
    unfold d3, det3. simpl in *.
    set (D := u0 * (v1 * q2 - v2 * q1) - u1 * (v0 * q2 - v2 * q0) + u2 * (v0 * q1 - v1 * q0)).
    assert (C0 : D * w0 = 0).
    { transitivity ((w0 * u0 + (w1 * u1 + (w2 * u2 + 0))) * (v1 * q2 - v2 * q1) - (w0 * v0 + (w1 * v1 + (w2 * v2 + 0))) * (u1 * q2 - u2 * q1) + (w0 * q0 + (w1 * q1 + (w2 * q2 + 0))) * (u1 * v2 - u2 * v1)).
      - unfold D. ring. - rewrite Wu, Wv, Wq. ring. }
    assert (C1 : D * w1 = 0).
    { transitivity ((w0 * u0 + (w1 * u1 + (w2 * u2 + 0))) * (v2 * q0 - v0 * q2) - (w0 * v0 + (w1 * v1 + (w2 * v2 + 0))) * (u2 * q0 - u0 * q2) + (w0 * q0 + (w1 * q1 + (w2 * q2 + 0))) * (u2 * v0 - u0 * v2)).
      - unfold D. ring. - rewrite Wu, Wv, Wq. ring. }
    assert (C2 : D * w2 = 0).
    { transitivity ((w0 * u0 + (w1 * u1 + (w2 * u2 + 0))) * (v0 * q1 - v1 * q0) - (w0 * v0 + (w1 * v1 + (w2 * v2 + 0))) * (u0 * q1 - u1 * q0) + (w0 * q0 + (w1 * q1 + (w2 * q2 + 0))) * (u0 * v1 - u1 * v0)).
      - unfold D. ring. - rewrite Wu, Wv, Wq. ring. }
    destruct (Req_dec D 0) as [|HD]; [assumption|]. exfalso. apply Hw.
    apply Rmult_integral in C0 as [|C0]; [contradiction|]. apply Rmult_integral in C1 as [|C1]; [contradiction|].
    apply Rmult_integral in C2 as [|C2]; [contradiction|]. rewrite C0, C1, C2. ring. }
  assert (I : d3 u v q * sprod n n - d3 u v n * sprod n q = sprod n v * d3 q u n - sprod n u * d3 q v n).
  { clear - Lu Lv Ln Lq. destruct (len3 u Lu) as (u0 & u1 & u2 & ->). destruct (len3 v Lv) as (v0 & v1 & v2 & ->).
    destruct (len3 n Ln) as (n0 & n1 & n2 & ->). destruct (len3 q Lq) as (q0 & q1 & q2 & ->). unfold d3, det3. simpl. ring. }
  assert (GN : d3 u v n * d3 u v n = (sprod u u * sprod v v - sprod u v * sprod u v) * sprod n n).
  { transitivity ((sprod u u * sprod v v - sprod u v * sprod u v) * sprod n n + 2 * sprod u v * sprod n u * sprod n v - sprod u u * (sprod n v * sprod n v) - sprod v v * (sprod n u * sprod n u)).
    - clear - Lu Lv Ln. destruct (len3 u Lu) as (u0 & u1 & u2 & ->). destruct (len3 v Lv) as (v0 & v1 & v2 & ->).
      destruct (len3 n Ln) as (n0 & n1 & n2 & ->). unfold d3, det3. simpl. ring.
    - rewrite Nu, Nv. ring. }
  rewrite D0, Nu, Nv in I.
  assert (Hdn : d3 u v n <> 0).
  { intros Z. rewrite Z in GN. assert ((sprod u u * sprod v v - sprod u v * sprod u v) * sprod n n <> 0) by (apply Rmult_integral_contrapositive_currified; assumption). lra. }
  assert (d3 u v n * sprod n q = 0) by lra. destruct (Rmult_integral _ _ H); [contradiction|assumption].
Qed.

Lemma gram_of_vol6 c a b x : length c = 3%nat -> length a = 3%nat -> length b = 3%nat -> length x = 3%nat ->
  vol6 x a b c <> 0 -> sprod (diff a c) (diff a c) * sprod (diff b c) (diff b c) - sprod (diff a c) (diff b c) * sprod (diff a c) (diff b c) <> 0.
Proof.
  intros Lc La Lb Lx HV Z. apply HV.
  assert (Ld : forall p q : rv, length p = 3%nat -> length q = 3%nat -> length (diff p q) = 3%nat) by (intros; rewrite diff_length; congruence).
  apply (gram_zero_d3 _ _ (diff x c)) in Z; auto.
  destruct (len3 x Lx) as (x0 & x1 & x2 & ->). destruct (len3 a La) as (a0 & a1 & a2 & ->).
  destruct (len3 b Lb) as (b0 & b1 & b2 & ->). destruct (len3 c Lc) as (c0 & c1 & c2 & ->).
  unfold vol6, d3, det3, px, py, pz in *. simpl in *. lra.
Qed.

(** A normal of a planar face is orthogonal to everything in the plane. *)
Lemma outward_plane e c a b x w (k : R) q : outward e c a b x -> length c = 3%nat -> length a = 3%nat -> length b = 3%nat -> length x = 3%nat -> length q = 3%nat ->
  vol6 x a b c <> 0 -> length w = 3%nat -> sprod w w <> 0 -> sprod w a = k -> sprod w b = k -> sprod w c = k -> sprod w q = k -> sprod e q = sprod e c.
Proof.
  intros (Le & Hu & Ha & Hb & Hx) Lc La Lb Lx Lq HV Lw Hw Wa Wb Wc Wq.
  assert (Ld : forall p q : rv, length p = 3%nat -> length q = 3%nat -> length (diff p q) = 3%nat) by (intros; rewrite diff_length; congruence).
  assert (H : sprod e (diff q c) = 0).
  { apply (plane_orth (diff a c) (diff b c) w e (diff q c)); auto; try (rewrite sprod_diff_r by congruence; lra).
    apply (gram_of_vol6 c a b x); assumption. }
  rewrite sprod_diff_r in H by congruence. lra.
Qed.
Lemma unit_par e e' w : length e = 3%nat -> length e' = 3%nat -> length w = 3%nat -> sprod e e = 1 -> sprod e' e' = 1 ->
  (forall q, length q = 3%nat -> sprod e q = 0 -> sprod e' q = 0) -> 0 < sprod e w -> 0 < sprod e' w -> e = e'.
Proof.
  intros Le Le' Lw Hu Hu' Ho Hw Hw'.
  assert (H : forall q, length q = 3%nat -> sprod e' q = sprod e q * sprod e' e).
  { intros q Lq. set (s := sprod e q).
    assert (L : length (vsub (K := numR) q (vscale (K := numR) e s)) = 3%nat) by (rewrite vsub_length; rewrite ?vscale_length; nr; lia).
    assert (Z : sprod e (vsub (K := numR) q (vscale (K := numR) e s)) = 0).
    { rewrite sprod_comm, sprod_vsub_l by (rewrite vscale_length; nr; lia). rewrite sprod_vscale_l, Hu, (sprod_comm q). unfold s. ring. }
    specialize (Ho _ L Z). rewrite sprod_comm, sprod_vsub_l in Ho by (rewrite vscale_length; nr; lia).
    rewrite sprod_vscale_l, (sprod_comm q), (sprod_comm e) in Ho. lra. }
  pose proof (H e' Le') as H1. rewrite Hu' in H1. rewrite (sprod_comm e e') in H1.
  assert (P : sprod e' e = 1).
  { pose proof (H w Lw) as Hww. set (t := sprod e' e) in *. assert (0 < t). { destruct (Rle_or_lt t 0); [|assumption]. nra. }
    nra. }
  destruct (len3 e Le) as (e0 & e1 & e2 & ->). destruct (len3 e' Le') as (f0 & f1 & f2 & ->).
  rewrite P in H.
  pose proof (H [1; 0; 0] eq_refl) as A0. pose proof (H [0; 1; 0] eq_refl) as A1. pose proof (H [0; 0; 1] eq_refl) as A2.
  simpl in A0, A1, A2. f_equal; [lra|f_equal; [lra|f_equal; lra]].
Qed.
(** Uniqueness of the outward normal of a plane, also when computed from different triangles. *)
Lemma outward_unique e e' c a b a' b' x w (k : R) : outward e c a b x -> outward e' c a' b' x ->
  length c = 3%nat -> length a = 3%nat -> length b = 3%nat -> length a' = 3%nat -> length b' = 3%nat -> length x = 3%nat ->
  vol6 x a b c <> 0 -> vol6 x a' b' c <> 0 ->
  length w = 3%nat -> sprod w w <> 0 -> sprod w a = k -> sprod w b = k -> sprod w c = k -> sprod w a' = k -> sprod w b' = k -> e = e'.
Proof.
  intros O O' Lc La Lb La' Lb' Lx HV HV' Lw Hw Wa Wb Wc Wa' Wb'.
  assert (Ld : forall p q : rv, length p = 3%nat -> length q = 3%nat -> length (diff p q) = 3%nat) by (intros; rewrite diff_length; congruence).
  pose proof O as (Le & Hu & Ha & Hb & Hx). pose proof O' as (Le' & Hu' & Ha' & Hb' & Hx').
  pose proof (outward_plane e c a b x w k a' O Lc La Lb Lx La' HV Lw Hw Wa Wb Wc Wa') as Ea'.
  pose proof (outward_plane e c a b x w k b' O Lc La Lb Lx Lb' HV Lw Hw Wa Wb Wc Wb') as Eb'.
  apply (unit_par e e' (diff c x)); auto.
  - intros q Lq Hq. apply (plane_orth (diff a' c) (diff b' c) e e' q); auto; try (rewrite sprod_diff_r by congruence; lra); [|lra].
    apply (gram_of_vol6 c a' b' x); assumption.
  - rewrite sprod_diff_r by congruence. lra.
  - rewrite sprod_diff_r by congruence. lra.
Qed.

Lemma side_cell_left (b : BConn) : (cellLeft (bc b) < 2 ^ 63)%N -> side_cell b = (cellLeft (bc b), true).
Proof.
  intros H. unfold side_cell.
  rewrite (plain_not_invalid 64 _ ltac:(lia) H).
  assert (H2 : (cellLeft (bc b) < 2 ^ 64)%N) by (change (2 ^ 64)%N with (2 ^ 63 * 2)%N; lia).
  rewrite (proj2 (plain_not_boundary 64 _ ltac:(lia) H2) H). reflexivity.
Qed.
Lemma side_cell_right (b : BConn) : (2 ^ 63 <= cellLeft (bc b) < 2 ^ 64)%N -> side_cell b = (cellRight (bc b), false).
Proof.
  intros H. unfold side_cell. replace (isBoundaryIndex 64 (cellLeft (bc b))) with true; [rewrite orb_true_r; reflexivity|].
  symmetry. rewrite isBoundary_testbit. change (64 - 1)%N with 63%N.
  apply N.testbit_true. assert (E : (cellLeft (bc b) / 2 ^ 63 = 1)%N).
  { symmetry. apply (N.div_unique _ _ 1 (cellLeft (bc b) - 2 ^ 63)); change (2 ^ 64)%N with (2 ^ 63 * 2)%N in H; lia. }
  rewrite E. reflexivity.
Qed.
Lemma side_center_cell cc face x l : side_center cc face x l ->
  exists i, side_cell (f_conn face) = (i, l) /\ vat cc i = Ok x.
Proof.
  destruct l; simpl; [intros [H1 H2]|intros (H1 & H2 & H3)].
  - eexists. split; [apply side_cell_left; assumption|]. apply vat_ok. assumption.
  - eexists. split; [apply side_cell_right; assumption|]. apply vat_ok. assumption.
Qed.

(** The result of normal3 for one face. *)
Lemma scale_sign (s : bool) (n : rv) : scalev (K := numR) (sign_of (K := numR) s) n = vscale (K := numR) n (if s then 1 else -1).
Proof. destruct s; reflexivity. Qed.
Lemma normal3_ok (m : Mesh rv) cc fc f face x l e0 es : geo_mesh m -> m_dim m = 3%nat ->
  (forall p, In p cc -> length p = 3%nat) -> (forall p, In p fc -> length p = 3%nat) -> length fc = length (m_faces m) ->
  nth_error (m_faces m) (N.to_nat f) = Some face -> side_center cc face x l -> f_subs face = e0 :: es ->
  exists n, normal3 (K := numR) m cc fc f = Ok n /\
  forall a b c, edge_points m e0 a b -> nth_error fc (N.to_nat f) = Some c -> vol6 x a b c <> 0 ->
    exists e, outward e c a b x /\ n = vscale (K := numR) e (if l then 1 else -1).
Proof.
  intros G D Hcc Hfc Lfc Hf Hs He.
  destruct (side_center_cell cc face x l Hs) as (i & Esd & Hx).
  assert (He0 : (e0 < N.of_nat (n_elems m 1))%N).
  { apply (wf_subs _ (geo_wf _ G) 2%nat f (e0 :: es)); [lia| |left; reflexivity].
    unfold subs. rewrite D. simpl. apply vat_ok in Hf. rewrite Hf. simpl. rewrite He. reflexivity. }
  destruct (edge_points_total m e0 G He0) as (a & b & Hab). destruct (edge_points_length _ _ _ _ G Hab) as [La Lb]. rewrite D in La, Lb.
  assert (Hc : exists c, nth_error fc (N.to_nat f) = Some c).
  { destruct (nth_error fc (N.to_nat f)) eqn:E; [eauto|]. apply nth_error_None in E.
    assert (N.to_nat f < length (m_faces m))%nat by (apply nth_error_Some; congruence). lia. }
  destruct Hc as (c & Hc).
  assert (Lx : length x = 3%nat) by (apply Hcc; apply vat_ok in Hx; eapply nth_error_In; exact Hx).
  assert (Lc : length c = 3%nat) by (apply Hfc; eapply nth_error_In; exact Hc).
  assert (HC : forall e0' e1 e2 ns, gramSchmidtN (K := numR) [vsub (K := numR) c a; vsub (K := numR) c b; vsub (K := numR) c x] = Ok ([e0'; e1; e2], ns) ->
    normal3 (K := numR) m cc fc f = Ok (vscale (K := numR) e2 (if l then 1 else -1))).
  { intros e0' e1 e2 ns Eg. unfold normal3. pose proof (proj2 (vat_ok (m_faces m) f face) Hf) as Hf'. nr. rewrite Hf'. cbn [bind]. rewrite Esd.
    nr. rewrite Hx. cbn [bind]. rewrite He. change (vidx (e0 :: es) 0) with (if (0 <? N.of_nat (S (length es)))%N then Ok e0 else UB).
    destruct (N.ltb_spec 0 (N.of_nat (S (length es)))); [|lia]. cbn [bind].
    pose proof (proj1 (ends_edge _ _ _ _) Hab) as Ee. nr. rewrite Ee. cbn [bind].
    pose proof (proj2 (vidx_ok fc f c) Hc) as Hc'. nr. rewrite Hc'. cbn [bind fst snd]. nr. rewrite Eg. cbn [bind fst].
    change (vidx [e0'; e1; e2] 2) with (Ok e2). cbn [bind]. rewrite scale_sign. reflexivity. }
  destruct (gs3_total (vsub (K := numR) c a) (vsub (K := numR) c b) (vsub (K := numR) c x)) as (e0' & e1 & e2 & n0 & n1 & n2 & Eg).
  exists (vscale (K := numR) e2 (if l then 1 else -1)). split; [eapply HC; exact Eg|].
  intros a' b' c' Hab' Hc' HV. destruct (edge_points_det _ _ _ _ _ _ Hab Hab') as [<- <-].
  assert (c = c') by congruence. subst c'.
  destruct (gs3_outward c a b x Lc La Lb Lx HV) as (f0 & f1 & f2 & k0 & k1 & k2 & Eg' & HO & _).
  assert (e2 = f2) by (pose proof (eq_trans (eq_sym Eg) Eg') as Q; injection Q; auto). subst f2.
  exists e2. split; [assumption|reflexivity].
Qed.

Lemma tess_normal_step_ok (m : Mesh rv) c x e i a b (s : rv * R) : length c = 3%nat -> length x = 3%nat -> length a = 3%nat -> length b = 3%nat ->
  edge_points m e a b -> vol6 x a b c <> 0 -> length (fst s) = 3%nat ->
  exists s' o, tess_normal_step (K := numR) m c x s (i, e) = Ok s' /\ length (fst s') = 3%nat /\ outward o c a b x /\
    snd s' = snd s + tri_area c a b /\
    forall d, (d < 3)%nat -> nth d (fst s') 0 = nth d (fst s) 0 + tri_area c a b * nth d o 0.
Proof.
  intros Lc Lx La Lb Hab HV Ls.
  destruct (gs3_outward c a b x Lc La Lb Lx HV) as (e0 & e1 & e2 & n0 & n1 & n2 & Eg & HO & EA & _).
  assert (Le : length e2 = 3%nat) by apply HO.
  exists (vadd (K := numR) (fst s) (vscale (K := numR) (vscale (K := numR) (vscale (K := numR) e2 (half (K := numR))) n0) n1), snd s + half (K := numR) * n0 * n1), e2.
  assert (LV : length (vscale (K := numR) (vscale (K := numR) (vscale (K := numR) e2 (half (K := numR))) n0) n1) = 3%nat) by (rewrite !vscale_length; exact Le).
  splits; cbn [fst snd].
  - unfold tess_normal_step. pose proof (proj1 (ends_edge _ _ _ _) Hab) as Ee. cbn [snd]. nr. rewrite Ee. cbn [bind fst snd]. nr. rewrite Eg. cbn [bind fst snd].
    change (vidx [e0; e1; e2] 2) with (Ok e2). change (vidx [n0; n1; n2] 0) with (Ok n0). change (vidx [n0; n1; n2] 1) with (Ok n1). reflexivity.
  - rewrite vadd_length; [assumption|]. nr. lia.
  - assumption.
  - rewrite <- EA. unfold half, two. simpl. nr. field.
  - intros d Hd. etransitivity; [apply (zip_nth Rplus); nr; lia|]. rewrite !vscale_nth, <- EA. unfold half, two. simpl. nr. field.
Qed.

Lemma tess_normal_fold (m : Mesh rv) c x i : geo_mesh m -> m_dim m = 3%nat -> length c = 3%nat -> length x = 3%nat ->
  forall js tris, Forall2 (fun e t => edge_points m e (snd (fst t)) (snd t) /\ fst (fst t) = c /\ vol6 x (snd (fst t)) (snd t) c <> 0) js tris ->
  forall s : rv * R, length (fst s) = 3%nat ->
  exists s' os, foldM (tess_normal_step (K := numR) m c x) (map (fun e : N => (i, e)) js) s = Ok s' /\ length (fst s') = 3%nat /\
    Forall2 (fun t o => outward o c (snd (fst t)) (snd t) x) tris os /\
    snd s' = snd s + Rsum (map tri_S tris) /\
    forall d, (d < 3)%nat -> nth d (fst s') 0 = nth d (fst s) 0 + Rsum (map (fun to => tri_S (fst to) * nth d (snd to) 0) (combine tris os)).
Proof.
  intros G D Lc Lx js tris HF. induction HF as [|e t js tris (Hab & Hc & HV) HF IH]; intros s Ls.
  - exists s, []. splits; try assumption; try reflexivity; try constructor; cbn [map Rsum combine]; intros; nr; ring.
  - destruct t as [[q a] b]. cbn [fst snd] in *. subst q.
    destruct (edge_points_length _ _ _ _ G Hab) as [La Lb]. rewrite D in La, Lb.
    destruct (tess_normal_step_ok m c x e i a b s Lc Lx La Lb Hab HV Ls) as (s1 & o & E1 & L1 & HO & H1 & N1).
    destruct (IH s1 L1) as (s2 & os & E2 & L2 & HOs & H2 & N2).
    exists s2, (o :: os). splits; try assumption.
    + cbn [map foldM]. nr. rewrite E1. cbn [bind]. exact E2.
    + constructor; assumption.
    + cbn [map Rsum]. etransitivity; [exact H2|]. etransitivity; [apply f_equal2; [exact H1|reflexivity]|]. unfold tri_S at 2. cbn [fst snd]. nr. ring.
    + intros d Hd. cbn [combine map Rsum fst snd]. etransitivity; [exact (N2 d Hd)|]. etransitivity; [apply f_equal2; [exact (N1 d Hd)|reflexivity]|].
      unfold tri_S at 2. cbn [fst snd]. nr. ring.
Qed.

Lemma normal3_tess_ok (m : Mesh rv) cc fc f face x l c tris : geo_mesh m -> m_dim m = 3%nat ->
  (forall p, In p cc -> length p = 3%nat) -> (forall p, In p fc -> length p = 3%nat) ->
  nth_error (m_faces m) (N.to_nat f) = Some face -> side_center cc face x l -> nth_error fc (N.to_nat f) = Some c ->
  Forall2 (fun e t => edge_points m e (snd (fst t)) (snd t) /\ fst (fst t) = c /\ vol6 x (snd (fst t)) (snd t) c <> 0) (f_subs face) tris ->
  Rsum (map tri_S tris) <> 0 ->
  exists n os, normal3_tess (K := numR) m cc fc f = Ok n /\ length n = 3%nat /\
    Forall2 (fun t o => outward o c (snd (fst t)) (snd t) x) tris os /\
    forall d, (d < 3)%nat -> nth d n 0 * Rsum (map tri_S tris) =
      (if l then 1 else -1) * Rsum (map (fun to => tri_S (fst to) * nth d (snd to) 0) (combine tris os)).
Proof.
  intros G D Hcc Hfc Hf Hs Hc HF Hnz.
  destruct (side_center_cell cc face x l Hs) as (i & Esd & Hx).
  assert (Lx : length x = 3%nat) by (apply Hcc; apply vat_ok in Hx; eapply nth_error_In; exact Hx).
  assert (Lc : length c = 3%nat) by (apply Hfc; eapply nth_error_In; exact Hc).
  assert (Hch : children m 2 f (f_subs face)).
  { unfold children. rewrite D. simpl. unfold subs. rewrite D. simpl. apply vat_ok in Hf. rewrite Hf. reflexivity. }
  destruct (tess_normal_fold m c x f G D Lc Lx _ _ HF (repeat 0 3, 0) eq_refl) as (s & os & Es & Ls & HO & H1 & H2).
  cbn [fst snd] in H1, H2.
  set (n := vdiv (K := numR) (fst s) (snd s)).
  assert (Hn : forall d, (d < 3)%nat -> nth d n 0 * Rsum (map tri_S tris) = Rsum (map (fun to => tri_S (fst to) * nth d (snd to) 0) (combine tris os))).
  { intros d Hd. unfold n, vdiv. rewrite vscale_nth.
    etransitivity; [apply f_equal2; [apply f_equal2; [exact (H2 d Hd)|apply (f_equal (ndiv (none_ (n := numR)))); exact H1]|reflexivity]|].
    assert (R0 : nth d (repeat 0 3) 0 = 0) by (apply nth_repeat). rewrite R0. simpl. field. lra. }
  exists (if l then n else vscale (K := numR) n (-1)), os. splits; try assumption.
  - unfold normal3_tess. pose proof (proj2 (vidx_ok (m_faces m) f face) Hf) as Hf'. nr. rewrite Hf'. cbn [bind]. rewrite Esd.
    nr. rewrite Hx. cbn [bind]. pose proof (proj2 (vidx_ok fc f c) Hc) as Hc'. nr. rewrite Hc'. cbn [bind].
    pose proof (apply1_children m 2 f _ ltac:(lia) Hch) as Ea. cbn [Nat.sub] in Ea. nr. rewrite Ea. cbn [bind].
    cbn [nzero numR] in *. nr. rewrite Es. cbn [bind]. reflexivity.
  - destruct l; unfold n, vdiv; rewrite ?vscale_length; exact Ls.
  - intros d Hd. destruct l; [rewrite (Hn d Hd); ring|]. rewrite vscale_nth.
    rewrite <- (Hn d Hd). nr. ring.
Qed.

(** Planar face: the tessellated normal is the common outward normal. *)
Lemma weighted_const (tris : list (point * point * point)) (os : list rv) (o : rv) d :
  length tris = length os -> (forall o', In o' os -> o' = o) ->
  Rsum (map (fun to => tri_S (fst to) * nth d (snd to) 0) (combine tris os)) = Rsum (map tri_S tris) * nth d o 0.
Proof.
  revert os. induction tris as [|t tris IH]; intros [|o' os] L H; try discriminate; [simpl; ring|].
  cbn [combine map Rsum fst snd]. rewrite IH; [|simpl in L; lia|intros; apply H; right; assumption].
  rewrite (H o' (or_introl eq_refl)). ring.
Qed.

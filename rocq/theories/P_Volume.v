From Coq Require Import Reals Lra Permutation.
From Verif Require Import P_Base M_Conn M_Index M_Mesh M_Apply S_Mesh P_Apply M_Vec S_Vec P_Vec P_GS P_GS3 M_Geom S_Geom P_Geom P_Tri P_Normals S_Polygon P_Polygon.
Local Open Scope R_scope.

(** * Planes and heights *)
Lemma triple_plane u v w n : length u = 3%nat -> length v = 3%nat -> length w = 3%nat -> length n = 3%nat ->
  sprod n n = 1 -> sprod n u = 0 -> sprod n v = 0 -> triple u v w = triple u v n * sprod n w.
Proof.
  intros Lu Lv Lw Ln. destruct (len3 u Lu) as (u0 & u1 & u2 & ->). destruct (len3 v Lv) as (v0 & v1 & v2 & ->).
  destruct (len3 w Lw) as (w0 & w1 & w2 & ->). destruct (len3 n Ln) as (n0 & n1 & n2 & ->). intros H1 H2 H3.
  rewrite <- (Rmult_1_r (triple _ _ [w0; w1; w2])), <- H1.
  assert (E : triple [u0; u1; u2] [v0; v1; v2] [w0; w1; w2] * sprod [n0; n1; n2] [n0; n1; n2] =
    triple [u0; u1; u2] [v0; v1; v2] [n0; n1; n2] * sprod [n0; n1; n2] [w0; w1; w2]
    - triple [n0; n1; n2] [u0; u1; u2] [w0; w1; w2] * sprod [n0; n1; n2] [v0; v1; v2]
    + triple [n0; n1; n2] [v0; v1; v2] [w0; w1; w2] * sprod [n0; n1; n2] [u0; u1; u2])
    by (unfold triple, det3, px, py, pz; simpl; ring).
  rewrite E, H2, H3. ring.
Qed.
Lemma vol6_triple x c a b : length x = 3%nat -> length c = 3%nat -> length a = 3%nat -> length b = 3%nat ->
  vol6 x c a b = triple (diff a c) (diff b c) (diff c x).
Proof.
  intros Lx Lc La Lb. destruct (len3 x Lx) as (x0 & x1 & x2 & ->). destruct (len3 c Lc) as (c0 & c1 & c2 & ->).
  destruct (len3 a La) as (a0 & a1 & a2 & ->). destruct (len3 b Lb) as (b0 & b1 & b2 & ->).
  unfold vol6, triple, det3, px, py, pz. simpl. ring.
Qed.
Lemma triple_gram u v n : length u = 3%nat -> length v = 3%nat -> length n = 3%nat ->
  sprod n n = 1 -> sprod n u = 0 -> sprod n v = 0 ->
  triple u v n * triple u v n = sprod u u * sprod v v - sprod u v * sprod u v.
Proof.
  intros Lu Lv Ln. destruct (len3 u Lu) as (u0 & u1 & u2 & ->). destruct (len3 v Lv) as (v0 & v1 & v2 & ->).
  destruct (len3 n Ln) as (n0 & n1 & n2 & ->). intros H1 H2 H3.
  set (u := [u0; u1; u2]) in *. set (v := [v0; v1; v2]) in *. set (n := [n0; n1; n2]) in *.
  assert (E : triple u v n * triple u v n = sprod n n * (sprod u u * sprod v v - sprod u v * sprod u v)
     + 2 * sprod u v * sprod n u * sprod n v - sprod u u * (sprod n v * sprod n v) - sprod v v * (sprod n u * sprod n u))
    by (unfold u, v, n, triple, det3, px, py, pz; simpl; ring).
  rewrite E, H1, H2, H3. ring.
Qed.
Lemma d3len (p q : point) : length p = 3%nat -> length q = 3%nat -> length (diff p q) = 3%nat.
Proof. intros. rewrite diff_length; congruence. Qed.
(** The tetrahedron over a triangle: base times height. *)
Lemma tri_height x c a b n : length x = 3%nat -> length c = 3%nat -> length a = 3%nat -> length b = 3%nat -> length n = 3%nat ->
  sprod n n = 1 -> sprod n a = sprod n c -> sprod n b = sprod n c ->
  Rabs (vol6 x c a b) = 2 * tri_area c a b * Rabs (sprod n x - sprod n c).
Proof.
  intros Lx Lc La Lb Ln Hu Ha Hb.
  assert (Z1 : sprod n (diff a c) = 0) by (rewrite sprod_diff_r by congruence; lra).
  assert (Z2 : sprod n (diff b c) = 0) by (rewrite sprod_diff_r by congruence; lra).
  rewrite vol6_triple by assumption.
  rewrite (triple_plane (diff a c) (diff b c) (diff c x) n) by (auto using d3len).
  rewrite Rabs_mult. rewrite (sprod_diff_r c x) by congruence. rewrite (Rabs_minus_sym (sprod n c)). f_equal.
  unfold tri_area. cbv zeta.
  rewrite <- (triple_gram (diff a c) (diff b c) n) by (auto using d3len).
  change (triple (diff a c) (diff b c) n * triple (diff a c) (diff b c) n) with (Rsqr (triple (diff a c) (diff b c) n)).
  rewrite sqrt_Rsqr_abs. field.
Qed.
Lemma unit_normal u v : length u = 3%nat -> length v = 3%nat -> sprod u u * sprod v v - sprod u v * sprod u v <> 0 ->
  exists n, length n = 3%nat /\ sprod n n = 1 /\ sprod n u = 0 /\ sprod n v = 0.
Proof.
  intros Lu Lv. destruct (len3 u Lu) as (u0 & u1 & u2 & ->). destruct (len3 v Lv) as (v0 & v1 & v2 & ->). intros H.
  set (x := u1 * v2 - u2 * v1). set (y := u2 * v0 - u0 * v2). set (z := u0 * v1 - u1 * v0).
  assert (HS : x * x + y * y + z * z <> 0).
  { intros Z. apply H. rewrite <- Z. unfold x, y, z. simpl. ring. }
  assert (HP : 0 < x * x + y * y + z * z).
  { pose proof (Rle_0_sqr x). pose proof (Rle_0_sqr y). pose proof (Rle_0_sqr z). unfold Rsqr in *. lra. }
  set (s := sqrt (x * x + y * y + z * z)). assert (Hs : s * s = x * x + y * y + z * z) by (apply sqrt_sqrt; lra).
  assert (Hs0 : s <> 0). { intros E. rewrite E in Hs. lra. }
  exists [x / s; y / s; z / s]. split; [reflexivity|]. simpl. split; [|split].
  - replace (x / s * (x / s) + (y / s * (y / s) + (z / s * (z / s) + 0))) with ((x * x + y * y + z * z) / (s * s)) by (field; assumption).
    rewrite <- Hs. field. assumption.
  - unfold x, y, z. field. assumption.
  - unfold x, y, z. field. assumption.
Qed.
Lemma tri_area_gram c a b : tri_area c a b <> 0 ->
  sprod (diff a c) (diff a c) * sprod (diff b c) (diff b c) - sprod (diff a c) (diff b c) * sprod (diff a c) (diff b c) <> 0.
Proof. intros H Z. apply H. unfold tri_area. cbv zeta. rewrite Z, sqrt_0. lra. Qed.
(** Gram determinant of the triangle seen from another vertex. *)
Lemma gram_shift (a b c : point) : length a = length b -> length a = length c ->
  sprod (diff a b) (diff a b) * sprod (diff a c) (diff a c) - sprod (diff a b) (diff a c) * sprod (diff a b) (diff a c) =
  sprod (diff a c) (diff a c) * sprod (diff b c) (diff b c) - sprod (diff a c) (diff b c) * sprod (diff a c) (diff b c).
Proof.
  intros Lb Lc. repeat rewrite ?sprod_diff_l, ?sprod_diff_r by (rewrite ?diff_length; congruence).
  rewrite (sprod_comm b a), (sprod_comm c a), (sprod_comm c b). ring.
Qed.
(** The third norm of Gram-Schmidt on a-b, a-c, a-x is the distance of x from the plane. *)
Lemma gs3_height (a b c x : point) : length a = 3%nat -> length b = 3%nat -> length c = 3%nat -> length x = 3%nat -> tri_area c a b <> 0 ->
  exists es n0 n1 h, gramSchmidtN (K := numR) [vsub (K := numR) a b; vsub (K := numR) a c; vsub (K := numR) a x] = Ok (es, [n0; n1; h]) /\ plane_dist x c a b h.
Proof.
  intros La Lb Lc Lx HT. rewrite !vsub_diff. pose proof (tri_area_gram c a b HT) as HG.
  rewrite <- gram_shift in HG by congruence.
  destruct (gs3_norms (diff a b) (diff a c) (diff a x)) as (e0 & e1 & e2 & n0 & n1 & n2 & E & P0 & P1 & P2 & Hg & Hd & _); auto using d3len.
  exists [e0; e1; e2], n0, n1, n2. split; [exact E|].
  destruct (unit_normal (diff a c) (diff b c)) as (n & Ln & Hu & Ha & Hb); auto using d3len.
  { rewrite <- gram_shift by congruence. exact HG. }
  rewrite sprod_diff_r in Ha, Hb by congruence.
  assert (Ha' : sprod n a = sprod n c) by lra. assert (Hb' : sprod n b = sprod n c) by lra.
  exists n. splits; try assumption.
  pose proof (tri_height x c a b n Lx Lc La Lb Ln Hu Ha' Hb') as HH.
  assert (EV : Rabs (d3 (diff a b) (diff a c) (diff a x)) = Rabs (vol6 x c a b)).
  { replace (d3 (diff a b) (diff a c) (diff a x)) with (vol6 x c a b); [reflexivity|].
    destruct (len3 x Lx) as (x0 & x1 & x2 & ->). destruct (len3 a La) as (a0 & a1 & a2 & ->).
    destruct (len3 b Lb) as (b0 & b1 & b2 & ->). destruct (len3 c Lc) as (c0 & c1 & c2 & ->).
    unfold vol6, d3, det3, px, py, pz. simpl. ring. }
  assert (E2 : n0 * n1 = 2 * tri_area c a b).
  { assert (Q : 0 < n0 * n1) by (apply Rmult_lt_0_compat; assumption).
    unfold tri_area. cbv zeta. rewrite <- gram_shift by congruence. rewrite <- Hg, sqrt_square by lra. field. }
  rewrite EV, HH, <- E2 in Hd. apply Rmult_eq_reg_l in Hd; [assumption|].
  apply Rgt_not_eq. apply Rmult_lt_0_compat; assumption.
Qed.
(** Second norm of Gram-Schmidt on b-a, c-a times the length of the edge. *)
Lemma gs2_height (a b c : point) : length a = length b -> length a = length c -> a <> b ->
  exists es n0 n1, gramSchmidtN (K := numR) [vsub (K := numR) b a; vsub (K := numR) c a] = Ok (es, [n0; n1]) /\ 1 / (1 + 1) * n1 * dist a b = tri_area c a b.
Proof.
  intros Lb Lc Hne. rewrite !vsub_diff.
  destruct (gs2_norms (diff b a) (diff c a)) as (e0 & e1 & n0 & n1 & E & HN & P0 & P1 & Hg & _).
  { rewrite (diff_length b a), (diff_length c a); nr; lia. }
  { apply diff_nz; [nr; lia|]. intros Q; apply Hne; symmetry; exact Q. }
  exists [e0; e1], n0, n1. split; [exact E|].
  assert (En : n0 = dist a b). { rewrite HN, dist_sym, <- norm_dist. rewrite vsub_diff. reflexivity. }
  rewrite <- En. unfold tri_area. cbv zeta.
  assert (Q : 0 <= n0 * n1) by (apply Rmult_le_pos; lra).
  assert (EG : sprod (diff a c) (diff a c) * sprod (diff b c) (diff b c) - sprod (diff a c) (diff b c) * sprod (diff a c) (diff b c) = (n0 * n1) * (n0 * n1)).
  { rewrite Hg. repeat rewrite ?sprod_diff_l, ?sprod_diff_r by (rewrite ?diff_length; congruence).
    rewrite (sprod_comm b a), (sprod_comm c a), (sprod_comm c b). ring. }
  rewrite EG, sqrt_square by assumption. field.
Qed.

(** * Closed surfaces *)
Lemma Rsum_flat {A B} (h : B -> R) (f : A -> list B) l : Rsum (map h (flat_map f l)) = Rsum (map (fun x => Rsum (map h (f x))) l).
Proof. induction l as [|x l IH]; simpl; [reflexivity|]. rewrite map_app, Rsum_app, IH. reflexivity. Qed.
Lemma closed_antisym (g : point * point -> R) faces : closed_surface faces -> (forall e, g (rev_edge e) = - g e) ->
  Rsum (map g (flat_map cycle_edges faces)) = 0.
Proof.
  intros HC Hg. pose proof (Rsum_perm _ _ (Permutation_map g HC)) as Q. rewrite map_map in Q.
  rewrite (Rsum_ext (fun e => g (rev_edge e)) (fun e => -1 * g e)) in Q by (intros; rewrite Hg; ring).
  rewrite Rsum_scale in Q. lra.
Qed.
(** det(p, q, r) of position vectors *)
Definition pdet (p q r : point) : R := vol6 [0; 0; 0] p q r.
Lemma vol6_pdet x p q r : vol6 x p q r = pdet p q r - pdet x p q - pdet x q r - pdet x r p.
Proof. unfold pdet, vol6, det3, px, py, pz. simpl. ring. Qed.
Lemma pdet_swap x p q : pdet x q p = - pdet x p q.
Proof. unfold pdet, vol6, det3, px, py, pz. simpl. ring. Qed.
(** Triangles of a face with apex c: seen from x instead of the origin. *)
Lemma face_from x c vs : Rsum (map (fun e => vol6 x c (fst e) (snd e)) (cycle_edges vs)) =
  Rsum (map (fun e => pdet c (fst e) (snd e)) (cycle_edges vs)) - Rsum (map (fun e => pdet x (fst e) (snd e)) (cycle_edges vs)).
Proof.
  rewrite <- Rsum_minus.
  rewrite (Rsum_ext _ (fun e => (pdet c (fst e) (snd e) - pdet x (fst e) (snd e)) + (pdet x c (snd e) - pdet x c (fst e)))).
  - rewrite Rsum_plus. rewrite (cycle_telescope (fun p => pdet x c p)). ring.
  - intros [a b] _. cbn [fst snd]. rewrite vol6_pdet, (pdet_swap x c b). ring.
Qed.
(** A planar face: the apex may be any point of the plane. *)
Lemma coplanar_vol6 ps p a b c : coplanar ps -> (forall q, In q [p; a; b; c] -> In q ps /\ length q = 3%nat) -> vol6 p a b c = 0.
Proof.
  intros (w & k & Lw & Hw & Hp) H.
  assert (L : forall q, In q [p; a; b; c] -> length q = 3%nat /\ sprod w q = k) by (intros q Hq; destruct (H q Hq); auto).
  destruct (L p) as [Lp Wp]; [simpl; auto|]. destruct (L a) as [La Wa]; [simpl; auto|].
  destruct (L b) as [Lb Wb]; [simpl; auto|]. destruct (L c) as [Lc Wc]; [simpl; auto 6|].
  destruct (len3 p Lp) as (p0 & p1 & p2 & ->). destruct (len3 a La) as (a0 & a1 & a2 & ->).
  destruct (len3 b Lb) as (b0 & b1 & b2 & ->). destruct (len3 c Lc) as (c0 & c1 & c2 & ->). destruct (len3 w Lw) as (w0 & w1 & w2 & ->).
  simpl in Hw, Wp, Wa, Wb, Wc. unfold vol6, det3, px, py, pz. simpl. clear -Hw Wp Wa Wb Wc.
  set (V := (a0 - p0) * ((b1 - p1) * (c2 - p2) - (b2 - p2) * (c1 - p1)) - (a1 - p1) * ((b0 - p0) * (c2 - p2) - (b2 - p2) * (c0 - p0)) +
            (a2 - p2) * ((b0 - p0) * (c1 - p1) - (b1 - p1) * (c0 - p0))).
  set (A := w0 * (a0 - p0) + w1 * (a1 - p1) + w2 * (a2 - p2)). set (B := w0 * (b0 - p0) + w1 * (b1 - p1) + w2 * (b2 - p2)).
  set (C := w0 * (c0 - p0) + w1 * (c1 - p1) + w2 * (c2 - p2)).
  assert (ZA : A = 0) by (unfold A; lra). assert (ZB : B = 0) by (unfold B; lra). assert (ZC : C = 0) by (unfold C; lra).
  assert (E0 : w0 * V = A * ((b1 - p1) * (c2 - p2) - (b2 - p2) * (c1 - p1)) + B * ((c1 - p1) * (a2 - p2) - (c2 - p2) * (a1 - p1)) + C * ((a1 - p1) * (b2 - p2) - (a2 - p2) * (b1 - p1)))
    by (unfold V, A, B, C; ring).
  assert (E1 : w1 * V = A * ((b2 - p2) * (c0 - p0) - (b0 - p0) * (c2 - p2)) + B * ((c2 - p2) * (a0 - p0) - (c0 - p0) * (a2 - p2)) + C * ((a2 - p2) * (b0 - p0) - (a0 - p0) * (b2 - p2)))
    by (unfold V, A, B, C; ring).
  assert (E2 : w2 * V = A * ((b0 - p0) * (c1 - p1) - (b1 - p1) * (c0 - p0)) + B * ((c0 - p0) * (a1 - p1) - (c1 - p1) * (a0 - p0)) + C * ((a0 - p0) * (b1 - p1) - (a1 - p1) * (b0 - p0)))
    by (unfold V, A, B, C; ring).
  rewrite ZA, ZB, ZC in E0, E1, E2.
  destruct (Req_dec V 0) as [|HV]; [assumption|]. exfalso. apply Hw.
  assert (w0 = 0) by (apply (Rmult_eq_reg_r V); [lra|assumption]).
  assert (w1 = 0) by (apply (Rmult_eq_reg_r V); [lra|assumption]).
  assert (w2 = 0) by (apply (Rmult_eq_reg_r V); [lra|assumption]). subst. ring.
Qed.
Lemma path_edges_in l : forall p e, In e (path_edges p l) -> (fst e = p \/ In (fst e) l) /\ In (snd e) l.
Proof.
  induction l as [|q l IH]; intros p e H; [destruct H|]. destruct H as [<-|H]; [simpl; auto|].
  apply IH in H as [[-> | H1] H2]; simpl; auto.
Qed.
Lemma cycle_edges_in vs e : In e (cycle_edges vs) -> In (fst e) vs /\ In (snd e) vs.
Proof.
  destruct vs as [|v r]; [intros []|]. intros H. apply path_edges_in in H as [H1 H2].
  assert (Q : forall x, In x (r ++ [v]) -> In x (v :: r)).
  { intros x Hx. apply in_app_or in Hx as [Hx|[->|[]]]; simpl; auto. }
  split; [destruct H1 as [-> |H1]; [simpl; auto|auto]|auto].
Qed.
Lemma face_apex c vs : coplanar (c :: vs) -> length c = 3%nat -> (forall v, In v vs -> length v = 3%nat) ->
  Rsum (map (fun e => pdet c (fst e) (snd e)) (cycle_edges vs)) = face_fan vs.
Proof.
  intros HC Lc Lv. destruct vs as [|v r]; [reflexivity|].
  change (face_fan (v :: r)) with (Rsum (map (fun e => pdet v (fst e) (snd e)) (cycle_edges (v :: r)))).
  pose proof (face_from v c (v :: r)) as Q.
  rewrite (Rsum_ext (fun e => vol6 v c (fst e) (snd e)) (fun _ => 0)) in Q.
  - rewrite Rsum_const in Q. lra.
  - intros e He. apply cycle_edges_in in He as [H1 H2]. apply (coplanar_vol6 (c :: v :: r)); [assumption|].
    intros q [<-|[<-|[<-|[<-|[]]]]]; simpl; simpl in H1, H2; split; auto; apply Lv; simpl; auto.
Qed.
(** Sum over all faces, apex of each face c, seen from any point x. *)
Lemma surface_sum x (ps : list (point * list point)) : closed_surface (map snd ps) ->
  (forall p, In p ps -> coplanar (fst p :: snd p) /\ length (fst p) = 3%nat /\ forall v, In v (snd p) -> length v = 3%nat) ->
  Rsum (map (fun p => Rsum (map (fun e => vol6 x (fst p) (fst e) (snd e)) (cycle_edges (snd p)))) ps) = 6 * poly_volume (map snd ps).
Proof.
  intros HC H. unfold poly_volume.
  rewrite (Rsum_ext _ (fun p => face_fan (snd p) - Rsum (map (fun e => pdet x (fst e) (snd e)) (cycle_edges (snd p))))).
  - rewrite Rsum_minus. rewrite map_map.
    pose proof (closed_antisym (fun e => pdet x (fst e) (snd e)) (map snd ps) HC (fun e => pdet_swap x (fst e) (snd e))) as Q.
    rewrite Rsum_flat, map_map in Q. rewrite Q. field.
  - intros p Hp. destruct (H p Hp) as (H1 & H2 & H3). rewrite face_from. rewrite face_apex by assumption. reflexivity.
Qed.

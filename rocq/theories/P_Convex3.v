From Coq Require Import Reals Lra Permutation.
From Verif Require Import P_Base M_Conn M_Index M_Mesh M_Apply S_Mesh P_Apply M_Vec S_Vec P_Vec P_GS3 M_Geom S_Geom P_Geom P_Centers P_Normals S_Polygon P_Polygon
  P_Volume S_Flux P_Flux P_Bnd T_Volume T_Gauss2 T_Gauss3 S_Convex P_Convex.
Local Open Scope R_scope.

Lemma mean_affine3 (al be ga de : R) ps c : is_mean 3 ps c -> ps <> [] ->
  al * px c + be * py c + ga * pz c + de = Rsum (map (fun p => al * px p + be * py p + ga * pz p + de) ps) / INR (length ps).
Proof.
  intros [_ H] Hne. assert (HN : 0 < INR (length ps)) by (apply lt_0_INR; destruct ps; [congruence|simpl; lia]).
  unfold px, py, pz. rewrite (H 0%nat ltac:(lia)), (H 1%nat ltac:(lia)), (H 2%nat ltac:(lia)).
  assert (E : Rsum (map (fun p : point => al * nth 0 p 0 + be * nth 1 p 0 + ga * nth 2 p 0 + de) ps) =
    al * Rsum (map (fun p => nth 0 p 0) ps) + be * Rsum (map (fun p => nth 1 p 0) ps) + ga * Rsum (map (fun p => nth 2 p 0) ps) + de * INR (length ps)).
  { clear. induction ps as [|p ps IH]; [simpl; ring|]. cbn [map Rsum]. rewrite IH. cbn [length]. rewrite S_INR. ring. }
  rewrite E. field. lra.
Qed.
Lemma sprod3 n v : length n = 3%nat -> length v = 3%nat -> sprod n v = px n * px v + py n * py v + pz n * pz v + 0.
Proof. intros Ln Lv. destruct (len3 n Ln) as (? & ? & ? & ->). destruct (len3 v Lv) as (? & ? & ? & ->). unfold px, py, pz. simpl. ring. Qed.
Lemma triple3 n e q a : length e = 3%nat -> length q = 3%nat -> length a = 3%nat ->
  triple n e (diff q a) = (py n * pz e - pz n * py e) * px q + (pz n * px e - px n * pz e) * py q + (px n * py e - py n * px e) * pz q
    - triple n e a.
Proof.
  intros Le Lq La. destruct (len3 e Le) as (? & ? & ? & ->). destruct (len3 q Lq) as (? & ? & ? & ->). destruct (len3 a La) as (? & ? & ? & ->).
  unfold triple, det3, px, py, pz. simpl. ring.
Qed.
Lemma INR_pos {A} (l : list A) : l <> [] -> 0 < INR (length l).
Proof. intros H. apply lt_0_INR. destruct l; [congruence|simpl; lia]. Qed.
(** A tetrahedron over a triangle a, b, c in the plane n.v = k. *)
Lemma vol6_plane n k x c a b : length n = 3%nat -> length x = 3%nat -> length c = 3%nat -> length a = 3%nat -> length b = 3%nat ->
  sprod n a = k -> sprod n b = k -> sprod n c = k ->
  vol6 x c a b * sprod n n = triple n (diff b a) (diff c a) * (k - sprod n x).
Proof.
  intros Ln Lx Lc La Lb Ha Hb Hc. destruct (len3 n Ln) as (n0 & n1 & n2 & ->). destruct (len3 x Lx) as (x0 & x1 & x2 & ->).
  destruct (len3 c Lc) as (c0 & c1 & c2 & ->). destruct (len3 a La) as (a0 & a1 & a2 & ->). destruct (len3 b Lb) as (b0 & b1 & b2 & ->).
  set (n := [n0; n1; n2]) in *. set (x := [x0; x1; x2]) in *. set (c := [c0; c1; c2]) in *. set (a := [a0; a1; a2]) in *. set (b := [b0; b1; b2]) in *.
  assert (E : vol6 x c a b * sprod n n = triple n (diff b a) (diff c a) * (sprod n c - sprod n x)
     - triple n (diff a c) (diff c x) * (sprod n b - sprod n c) + triple n (diff b c) (diff c x) * (sprod n a - sprod n c))
    by (unfold n, x, a, b, c, vol6, triple, det3, px, py, pz; simpl; ring).
  rewrite E, Ha, Hb, Hc. ring.
Qed.
Lemma sprod_pos n : sprod n n <> 0 -> 0 < sprod n n.
Proof. intros H. assert (0 <= sprod n n); [|lra]. clear. induction n as [|x n IH]; simpl; [lra|]. nra. Qed.

(** * Relative interior *)
Lemma mean_inside vs c : is_mean 3 vs c -> vs <> [] -> rel_inside vs c.
Proof.
  intros H Hne. split; [apply H|]. intros al be ga de Hv. pose proof (INR_pos vs Hne) as HN.
  rewrite (mean_affine3 al be ga de vs c H Hne). split.
  - apply Rmult_le_pos; [|apply Rlt_le, Rinv_0_lt_compat; assumption]. apply Rsum_nonneg. exact Hv.
  - intros Hex. apply Rdiv_lt_0_compat; [|assumption]. apply Rsum_pos; assumption.
Qed.
Lemma inside_union faces cs x : faces <> [] -> Forall2 rel_inside faces cs -> is_mean 3 cs x -> rel_inside (concat faces) x.
Proof.
  intros Hne HF Hm. assert (Hcs : cs <> []) by (intros ->; inversion HF; congruence). split; [apply Hm|]. intros al be ga de Hv.
  destruct (mean_inside cs x Hm Hcs) as [_ H]. destruct (H al be ga de) as [H1 H2].
  - intros c Hc. destruct (Forall2_In_r _ _ _ _ HF Hc) as (ws & Hws & _ & Q). apply Q. intros v Hin. apply Hv. apply in_concat. eauto.
  - split; [exact H1|]. intros (v & Hin & Hlt). apply H2. apply in_concat in Hin as (ws & Hws & Hin).
    destruct (Forall2_In_l _ _ _ _ HF Hws) as (c & Hc & _ & Q). exists c. split; [assumption|]. apply Q; [|eauto].
    intros w Hw. apply Hv. apply in_concat. eauto.
Qed.
Lemma centroid_inside vs c0 tris c : is_mean 3 vs c0 -> vs <> [] ->
  (forall t, In t tris -> fst (fst t) = c0 /\ In (snd (fst t)) vs /\ In (snd t) vs) -> 0 < Rsum (map tri_S tris) -> is_centroid 3 tris c -> rel_inside vs c.
Proof.
  intros Hm Hne Ht HS [Lc Hc]. split; [exact Lc|]. intros al be ga de Hv. set (g := fun p => al * px p + be * py p + ga * pz p + de).
  change (0 <= g c /\ ((exists v, In v vs /\ 0 < g v) -> 0 < g c)).
  assert (E : g c * Rsum (map tri_S tris) = Rsum (map (fun t => tri_S t * ((g c0 + g (snd (fst t)) + g (snd t)) / 3)) tris)).
  { unfold g, px, py, pz. pose proof (Hc 0%nat ltac:(lia)) as C0. pose proof (Hc 1%nat ltac:(lia)) as C1. pose proof (Hc 2%nat ltac:(lia)) as C2.
    replace ((al * nth 0 c 0 + be * nth 1 c 0 + ga * nth 2 c 0 + de) * Rsum (map tri_S tris)) with
      (al * (nth 0 c 0 * Rsum (map tri_S tris)) + be * (nth 1 c 0 * Rsum (map tri_S tris)) + ga * (nth 2 c 0 * Rsum (map tri_S tris)) + de * Rsum (map tri_S tris)) by ring.
    rewrite C0, C1, C2. rewrite <- !Rsum_scale, <- !Rsum_plus. apply Rsum_ext. intros t Hin. rewrite (proj1 (Ht t Hin)). field. }
  assert (HT : forall t, In t tris -> 0 <= tri_S t).
  { intros t _. unfold tri_S, tri_area. apply Rmult_le_pos; [apply sqrt_pos|lra]. }
  destruct (mean_inside vs c0 Hm Hne) as [_ HM]. destruct (HM al be ga de Hv) as [M1 M2]. fold (g c0) in M1, M2.
  split.
  - assert (0 <= g c * Rsum (map tri_S tris)).
    { rewrite E. apply Rsum_nonneg. intros t Hin. destruct (Ht t Hin) as (_ & Ha & Hb). pose proof (HT t Hin). pose proof (Hv _ Ha). pose proof (Hv _ Hb).
      apply Rmult_le_pos; [assumption|]. unfold g. unfold g in M1. lra. }
    destruct (Rle_or_lt 0 (g c)) as [|Hn]; [assumption|exfalso]. nra.
  - intros Hex. specialize (M2 Hex).
    assert (0 < g c * Rsum (map tri_S tris)).
    { rewrite E. apply Rsum_pos.
      - intros t Hin. destruct (Ht t Hin) as (_ & Ha & Hb). pose proof (HT t Hin). pose proof (Hv _ Ha). pose proof (Hv _ Hb).
        apply Rmult_le_pos; [assumption|]. unfold g. unfold g in M1. lra.
      - assert (Q : exists t, In t tris /\ 0 < tri_S t).
        { clear -HS HT. induction tris as [|t tris IH]; [simpl in HS; lra|]. cbn [map Rsum] in HS.
          destruct (Rlt_or_le 0 (tri_S t)) as [|Hle]; [exists t; split; [left; reflexivity|assumption]|].
          destruct IH as (t' & H1 & H2); [lra|intros; apply HT; right; assumption|]. exists t'. split; [right; assumption|assumption]. }
        destruct Q as (t & Hin & Hp). exists t. split; [assumption|]. destruct (Ht t Hin) as (_ & Ha & Hb). pose proof (Hv _ Ha). pose proof (Hv _ Hb).
        apply Rmult_lt_0_compat; [assumption|]. unfold g. unfold g in M2. lra. }
    destruct (Rlt_or_le 0 (g c)) as [|Hn]; [assumption|exfalso]. nra.
Qed.
Lemma inside_le n k ps c : length n = 3%nat -> (forall p, In p ps -> length p = 3%nat) -> rel_inside ps c ->
  (forall p, In p ps -> sprod n p <= k) -> sprod n c <= k /\ ((exists p, In p ps /\ sprod n p < k) -> sprod n c < k).
Proof.
  intros Ln Lp [Lc H] Hk. destruct (H (- px n) (- py n) (- pz n) k) as [H1 H2].
  - intros v Hv. pose proof (Hk v Hv) as Q. rewrite (sprod3 n v Ln (Lp v Hv)) in Q. lra.
  - rewrite (sprod3 n c Ln Lc). split; [lra|]. intros (p & Hp & Hlt). rewrite (sprod3 n p Ln (Lp p Hp)) in Hlt.
    assert (0 < - px n * px c + - py n * py c + - pz n * pz c + k); [|lra]. apply H2. exists p. split; [assumption|lra].
Qed.
Lemma inside_eq n k ps c : length n = 3%nat -> (forall p, In p ps -> length p = 3%nat) -> rel_inside ps c ->
  (forall p, In p ps -> sprod n p = k) -> sprod n c = k.
Proof.
  intros Ln Lp [Lc H] Hk. rewrite (sprod3 n c Ln Lc).
  destruct (H (- px n) (- py n) (- pz n) k) as [H1 _]; [intros v Hv; pose proof (Hk v Hv) as Q; rewrite (sprod3 n v Ln (Lp v Hv)) in Q; lra|].
  destruct (H (px n) (py n) (pz n) (- k)) as [H2 _]; [intros v Hv; pose proof (Hk v Hv) as Q; rewrite (sprod3 n v Ln (Lp v Hv)) in Q; lra|]. lra.
Qed.
Lemma inside_triple n e a ps c : length e = 3%nat -> length a = 3%nat -> (forall p, In p ps -> length p = 3%nat) -> rel_inside ps c ->
  (forall q, In q ps -> 0 <= triple n e (diff q a)) -> (exists q, In q ps /\ 0 < triple n e (diff q a)) -> 0 < triple n e (diff c a).
Proof.
  intros Le La Lp [Lc H] Hq (q & Hin & Hlt). rewrite (triple3 n e c a Le Lc La). unfold Rminus. apply H.
  - intros v Hv. pose proof (Hq v Hv) as Q. rewrite (triple3 n e v a Le (Lp v Hv) La) in Q. exact Q.
  - exists q. split; [assumption|]. rewrite (triple3 n e q a Le (Lp q Hin) La) in Hlt. exact Hlt.
Qed.

(** One face of a convex solid: a face centre c in its interior, and a point x strictly inside its plane, see every side in the same orientation. *)
Lemma face_orient n k vs x c e : length n = 3%nat -> (forall v, In v vs -> length v = 3%nat) -> length x = 3%nat ->
  (forall v, In v vs -> sprod n v = k) -> convex_face n vs -> rel_inside vs c -> sprod n x < k -> In e (cycle_edges vs) ->
  0 < triple n (diff (snd e) (fst e)) (diff c (fst e)) /\ 0 < vol6 x c (fst e) (snd e) /\ sprod n n <> 0 /\ sprod n c = k.
Proof.
  intros Ln Lv Lx Hk HC Hm Hx He. destruct (cycle_in _ _ He) as [Ha Hb].
  assert (Hc : sprod n c = k) by (apply (inside_eq n k vs c); auto). destruct (HC e He) as [H1 H2].
  assert (HT : 0 < triple n (diff (snd e) (fst e)) (diff c (fst e))) by (apply (inside_triple n _ _ vs c); auto using d3len).
  pose proof (vol6_plane n k x c (fst e) (snd e) Ln Lx (proj1 Hm) (Lv _ Ha) (Lv _ Hb) (Hk _ Ha) (Hk _ Hb) Hc) as E.
  assert (HP : 0 < vol6 x c (fst e) (snd e) * sprod n n) by (rewrite E; apply Rmult_lt_0_compat; lra).
  assert (Hn : sprod n n <> 0) by (intros Q; rewrite Q in HP; lra). splits; auto.
  pose proof (sprod_pos n Hn) as Hn'. destruct (Rlt_or_le 0 (vol6 x c (fst e) (snd e))) as [|Hle]; [assumption|exfalso].
  pose proof (Rmult_le_compat_r _ _ _ (Rlt_le _ _ Hn') Hle). lra.
Qed.
(** A unit normal of the face that looks away from x is the outward normal: the whole solid is behind it. *)
Lemma behind n k u x c a b v : length n = 3%nat -> length u = 3%nat -> length x = 3%nat -> length c = 3%nat -> length a = 3%nat -> length b = 3%nat -> length v = 3%nat ->
  sprod n a = k -> sprod n b = k -> sprod n c = k -> sprod n x < k -> 0 < vol6 x c a b -> sprod n v <= k ->
  sprod u a = sprod u c -> sprod u b = sprod u c -> sprod u x < sprod u c -> sprod u v <= sprod u c.
Proof.
  intros Ln Lu Lx Lc La Lb Lv Ha Hb Hc Hx HV Hv Ua Ub Ux.
  assert (E : forall w, length w = 3%nat -> (sprod u w - sprod u c) * vol6 x c a b = (sprod u x - sprod u c) * vol6 w c a b).
  { intros w Lw. destruct (len3 u Lu) as (n0 & n1 & n2 & ->). destruct (len3 x Lx) as (x0 & x1 & x2 & ->).
    destruct (len3 c Lc) as (c0 & c1 & c2 & ->). destruct (len3 a La) as (a0 & a1 & a2 & ->). destruct (len3 b Lb) as (b0 & b1 & b2 & ->).
    destruct (len3 w Lw) as (w0 & w1 & w2 & ->).
    set (u := [n0; n1; n2]) in *. set (x := [x0; x1; x2]) in *. set (c := [c0; c1; c2]) in *. set (a := [a0; a1; a2]) in *. set (b := [b0; b1; b2]) in *.
    set (w := [w0; w1; w2]) in *.
    assert (Q : (sprod u w - sprod u c) * vol6 x c a b - (sprod u x - sprod u c) * vol6 w c a b
       = (sprod u a - sprod u c) * triple (diff x c) (diff w c) (diff b c) - (sprod u b - sprod u c) * triple (diff x c) (diff w c) (diff a c) \/
       (sprod u w - sprod u c) * vol6 x c a b - (sprod u x - sprod u c) * vol6 w c a b
       = - (sprod u a - sprod u c) * triple (diff x c) (diff w c) (diff b c) + (sprod u b - sprod u c) * triple (diff x c) (diff w c) (diff a c)).
    { unfold u, x, a, b, c, w, vol6, triple, det3, px, py, pz; simpl. first [left; ring|right; ring]. }
    rewrite Ua, Ub in Q. destruct Q as [Q|Q]; lra. }
  pose proof (E v Lv) as Ev.
  pose proof (vol6_plane n k x c a b Ln Lx Lc La Lb Ha Hb Hc) as V1. pose proof (vol6_plane n k v c a b Ln Lv Lc La Lb Ha Hb Hc) as V2.
  set (T := triple n (diff b a) (diff c a)) in *.
  assert (Hnn : 0 <= sprod n n) by (clear; induction n as [|y n IH]; simpl; [lra|nra]).
  assert (HT : 0 <= T).
  { destruct (Rle_or_lt 0 T) as [|HT]; [assumption|exfalso].
    assert (T * (k - sprod n x) < 0) by nra. assert (0 <= vol6 x c a b * sprod n n) by nra. lra. }
  assert (Hnp : 0 < sprod n n).
  { destruct Hnn as [|Q]; [assumption|exfalso]. rewrite <- Q in V1. assert (T = 0) by nra.
    assert (n = [0;0;0]) as ->.
    { destruct (len3 n Ln) as (n0 & n1 & n2 & ->). simpl in Q. destruct (sq3_zero n0 n1 n2 ltac:(lra)) as (-> & -> & ->). reflexivity. }
    destruct (len3 x Lx) as (? & ? & ? & ->). destruct (len3 c Lc) as (? & ? & ? & ->). simpl in *. lra. }
  assert (HVv : 0 <= vol6 v c a b).
  { destruct (Rle_or_lt 0 (vol6 v c a b)) as [|Hn]; [assumption|exfalso].
    assert (0 <= T * (k - sprod n v)) by (apply Rmult_le_pos; lra). assert (vol6 v c a b * sprod n n < 0) by nra. lra. }
  destruct (Rle_or_lt (sprod u v) (sprod u c)) as [|Hn]; [assumption|exfalso].
  assert (0 < (sprod u v - sprod u c) * vol6 x c a b) by (apply Rmult_lt_0_compat; lra).
  assert ((sprod u x - sprod u c) * vol6 v c a b <= 0) by nra. lra.
Qed.

(** Gram-Schmidt norms as areas and volumes of triangles and tetrahedra; tessellated centres (C46). *)
From Coq Require Import Reals Lra Psatz.
From Verif Require Import P_Base M_Conn M_Index M_Mesh M_Apply S_Mesh P_Apply M_Vec S_Vec P_Vec P_GS P_GS3 M_Geom S_Geom P_Geom P_Centers.
Local Open Scope R_scope.

Lemma diff_neg2 (p q r : rv) : sprod (diff p q) (diff r q) = sprod (diff q p) (diff q r).
Proof.
  revert q r. induction p as [|x p IH]; intros [|y q] [|z r]; simpl; try reflexivity. rewrite IH. ring.
Qed.
Lemma diff_neg_l (p q w : rv) : sprod (diff p q) w = - sprod (diff q p) w.
Proof.
  revert q w. induction p as [|x p IH]; intros [|y q] [|z w]; simpl; try ring. rewrite IH. ring.
Qed.
Lemma diff_nz (p q : rv) : length p = length q -> p <> q -> sprod (diff p q) (diff p q) <> 0.
Proof.
  intros L H E. pose proof (dist_pos p q L H) as P. unfold dist in P. rewrite E, sqrt_0 in P. lra.
Qed.
Lemma gs2_total (u v : rv) : exists e0 e1 n0 n1, gramSchmidtN (K := numR) [u; v] = Ok ([e0; e1], [n0; n1]).
Proof. rewrite gsn_start, gs_loop_eq, gs_loop_eq. cbn [gs_loop app map]. do 4 eexists. reflexivity. Qed.
Lemma gs3_total (u v w : rv) : exists e0 e1 e2 n0 n1 n2, gramSchmidtN (K := numR) [u; v; w] = Ok ([e0; e1; e2], [n0; n1; n2]).
Proof. rewrite gsn_start, gs_loop_eq, gs_loop_eq, gs_loop_eq. cbn [gs_loop app map]. do 6 eexists. reflexivity. Qed.

(** The triangle p, a, b by Gram-Schmidt on p-a, p-b. *)
Lemma gs2_tri (p a b : rv) : length p = length a -> length p = length b -> p <> a ->
  exists e0 e1 n0 n1, gramSchmidtN (K := numR) [vsub (K := numR) p a; vsub (K := numR) p b] = Ok ([e0; e1], [n0; n1]) /\
    n0 * n1 / 2 = tri_area p a b.
Proof.
  intros La Lb Hne. rewrite !vsub_diff.
  destruct (gs2_norms (diff p a) (diff p b)) as (e0 & e1 & n0 & n1 & E & _ & P0 & P1 & Hs & _).
  { rewrite !diff_length by assumption. reflexivity. }
  { apply diff_nz; assumption. }
  exists e0, e1, n0, n1. split; [exact E|]. unfold tri_area. cbv zeta. f_equal.
  rewrite !(diff_neg2 _ p), <- Hs. symmetry. apply sqrt_square. apply Rmult_le_pos; lra.
Qed.
Lemma tri_area_nonneg p a b : 0 <= tri_area p a b.
Proof. unfold tri_area. pose proof (sqrt_pos (sprod (diff a p) (diff a p) * sprod (diff b p) (diff b p) - sprod (diff a p) (diff b p) * sprod (diff a p) (diff b p))). simpl. lra. Qed.

Lemma Forall2_cons_iff {A B} (P : A -> B -> Prop) a l b l' : Forall2 P (a :: l) (b :: l') <-> P a b /\ Forall2 P l l'.
Proof. split; [intros H; inversion H; auto|intros [? ?]; constructor; assumption]. Qed.

(** One face of [tess_face_centers]. *)
Section TessCenter.
Variables (m : Mesh rv) (sub : list rv) (c0 : rv).
Hypothesis (G : geo_mesh m) (D : m_dim m = 3%nat) (L0 : length c0 = 3%nat).
Hypothesis Hsub : length sub = n_elems m 1.
Hypothesis Hsl : forall p, In p sub -> length p = 3%nat.
Hypothesis Hmid : forall e a b c, edge_points m e a b -> look sub e c -> is_mean 3 [a; b] c.

Lemma tess_sub_ok e i : (e < N.of_nat (n_elems m 1))%N -> forall s : rv * R, length (fst s) = 3%nat ->
  exists s', tess_sub (K := numR) m sub c0 s (i, e) = Ok s' /\ length (fst s') = 3%nat /\
  forall a b, edge_points m e a b -> c0 <> a ->
    snd s' = snd s + tri_area c0 a b /\
    forall d, (d < 3)%nat -> nth d (fst s') 0 = nth d (fst s) 0 + tri_area c0 a b * ((nth d a 0 + nth d b 0) / 3).
Proof.
  intros He s Ls. destruct (edge_points_total m e G He) as (a & b & Hab).
  destruct (edge_points_length _ _ _ _ G Hab) as [La Lb]. rewrite D in La, Lb.
  pose proof (proj1 (ends_edge _ _ _ _) Hab) as Ee.
  destruct (vat_lt sub e) as [x Hx]; [rewrite Hsub; assumption|].
  assert (Hlk : look sub e x) by (apply vat_ok; assumption).
  assert (Lx : length x = 3%nat) by (apply Hsl; eapply nth_error_In; exact Hlk).
  assert (HC : forall e0 e1 n0 n1,
     gramSchmidtN (K := numR) [vsub (K := numR) c0 a; vsub (K := numR) c0 b] = Ok ([e0; e1], [n0; n1]) ->
     tess_sub (K := numR) m sub c0 s (i, e) =
       Ok (vadd (K := numR) (fst s) (vscale (K := numR) x ((n0 * (1 / (1 + 1)) * n1) * ((1 + 1) / (1 + 1 + 1)))), snd s + n0 * (1 / (1 + 1)) * n1)).
  { intros e0 e1 n0 n1 Eg. unfold tess_sub. cbn [snd]. nr. rewrite Ee. cbn [bind fst snd]. nr. rewrite Eg. cbn [bind fst snd].
    change (vat [n0; n1] 0) with (Ok n0). change (vat [n0; n1] 1) with (Ok n1). cbn [bind]. rewrite Hx. reflexivity. }
  destruct (gs2_total (vsub (K := numR) c0 a) (vsub (K := numR) c0 b)) as (e0 & e1 & n0 & n1 & Eg).
  eexists. split; [eapply HC; exact Eg|]. split.
  { cbn [fst]. rewrite vadd_length; [assumption|]. rewrite vscale_length. nr. lia. }
  intros a' b' Hab' Hne. destruct (edge_points_det _ _ _ _ _ _ Hab Hab') as [<- <-].
  destruct (gs2_tri c0 a b ltac:(lia) ltac:(lia) Hne) as (e0' & e1' & n0' & n1' & Eg' & EA).
  assert (n0 = n0' /\ n1 = n1') as [<- <-] by (pose proof (eq_trans (eq_sym Eg) Eg') as Q; injection Q; auto).
  rewrite <- EA. cbn [fst snd]. split; [nr; field|].
  intros d Hd.
  assert (E : nth d (vadd (K := numR) (fst s) (vscale (K := numR) x (n0 * (1 / (1 + 1)) * n1 * ((1 + 1) / (1 + 1 + 1))))) 0 =
    nth d (fst s) 0 + nth d x 0 * (n0 * (1 / (1 + 1)) * n1 * ((1 + 1) / (1 + 1 + 1)))).
  { etransitivity; [apply (zip_nth Rplus); [nr; lia|rewrite vscale_length; nr; lia]|]. rewrite vscale_nth. reflexivity. }
  etransitivity; [exact E|]. destruct (Hmid _ _ _ _ Hab Hlk) as [_ Hx']. rewrite (Hx' d Hd). cbn [map Rsum length INR]. nr. field.
Qed.

Lemma tess_fold i : forall js, (forall e, In e js -> (e < N.of_nat (n_elems m 1))%N) ->
  forall s : rv * R, length (fst s) = 3%nat ->
  exists s', foldM (tess_sub (K := numR) m sub c0) (map (fun e : N => (i, e)) js) s = Ok s' /\ length (fst s') = 3%nat /\
  forall tris, Forall2 (fun e t => edge_points m e (snd (fst t)) (snd t) /\ fst (fst t) = c0 /\ c0 <> snd (fst t)) js tris ->
    snd s' = snd s + Rsum (map tri_S tris) /\
    forall d, (d < 3)%nat -> nth d (fst s') 0 = nth d (fst s) 0 + Rsum (map (fun t => tri_S t * ((nth d (snd (fst t)) 0 + nth d (snd t) 0) / 3)) tris).
Proof.
  induction js as [|e js IH]; intros Hlt s Ls.
  - exists s. split; [reflexivity|]. split; [assumption|]. intros tris HF. destruct tris; [|inversion HF]. cbn [map Rsum]. split; [|intros d Hd]; nr; ring.
  - destruct (tess_sub_ok e i (Hlt e (or_introl eq_refl)) s Ls) as (s1 & E1 & L1 & H1).
    destruct (IH (fun x Hx => Hlt x (or_intror Hx)) s1 L1) as (s2 & E2 & L2 & H2).
    exists s2. split; [|split; [assumption|]].
    { cbn [map foldM]. nr. rewrite E1. cbn [bind]. exact E2. }
    intros tris HF. destruct tris as [|[[q a] b] tris]; [inversion HF|]. apply Forall2_cons_iff in HF as [(Hab & Hq & Hne) HF].
    cbn [fst snd] in Hab, Hq, Hne. subst q. destruct (H1 a b Hab Hne) as [Hs Hd]. destruct (H2 tris HF) as [Hs' Hd'].
    cbn [map Rsum]. unfold tri_S at 1 3. cbn [fst snd]. split.
    { etransitivity; [exact Hs'|]. etransitivity; [apply f_equal2; [exact Hs|reflexivity]|]. nr. ring. }
    intros d Hdd. etransitivity; [exact (Hd' d Hdd)|]. etransitivity; [apply f_equal2; [exact (Hd d Hdd)|reflexivity]|].
    nr. ring.
Qed.
End TessCenter.

Lemma tess_face_centers_ok (m : Mesh rv) sub : geo_mesh m -> no_empty m -> m_dim m = 3%nat ->
  length sub = n_elems m 1 -> (forall p, In p sub -> length p = 3%nat) ->
  (forall e a b c, edge_points m e a b -> look sub e c -> is_mean 3 [a; b] c) ->
  exists tab, tess_face_centers (K := numR) m sub = Ok tab /\ length tab = n_elems m 2 /\
    (forall p, In p tab -> length p = 3%nat) /\
    (forall i js ps c0 tris c, children m 2 i js -> Forall2 (look sub) js ps -> is_mean 3 ps c0 ->
      Forall2 (fun e t => edge_points m e (snd (fst t)) (snd t) /\ fst (fst t) = c0 /\ c0 <> snd (fst t)) js tris ->
      Rsum (map tri_S tris) <> 0 -> look tab i c -> is_centroid 3 tris c).
Proof.
  intros G HN D Ls Hl Hmid. unfold tess_face_centers.
  assert (Hl' : forall p, In p sub -> length p = m_dim m) by (rewrite D; assumption).
  destruct (center_level_ok m 2 sub G HN ltac:(lia) Ls Hl') as (c0s & E0 & L0 & Hd0 & Hm0).
  rewrite D in E0, Hd0, Hm0.
  destruct (table_ok (fun i => c0 <- vat c0s i ;; calls <- apply1 m 2 1 i ;;
                 s <- foldM (tess_sub (K := numR) m sub c0) calls (repeat (nzero (n := numR)) 3, (nzero (n := numR))) ;;
                 Ok (vadd (K := numR) (vdiv (K := numR) c0 (three (K := numR))) (vdiv (K := numR) (fst s) (snd s))))
    (fun i c => length c = 3%nat /\ forall js ps c0 tris, children m 2 i js -> Forall2 (look sub) js ps -> is_mean 3 ps c0 ->
      Forall2 (fun e t => edge_points m e (snd (fst t)) (snd t) /\ fst (fst t) = c0 /\ c0 <> snd (fst t)) js tris ->
      Rsum (map tri_S tris) <> 0 -> is_centroid 3 tris c)
    (n_elems m 2)) as (tab & E & L & H & _).
  { intros i Hi. destruct (children_total m 2 i (geo_wf _ G) ltac:(lia) Hi) as (js & Hc).
    destruct (vat_lt c0s i) as [c0 Hc0]; [rewrite L0; assumption|].
    assert (Hk0 : look c0s i c0) by (apply vat_ok; assumption).
    assert (Lc0 : length c0 = 3%nat) by (apply Hd0; eapply nth_error_In; exact Hk0).
    assert (Hjs : forall e, In e js -> (e < N.of_nat (n_elems m 1))%N).
    { intros e Hee. eapply (children_lt m 2); [apply G|lia|exact Hc|exact Hee]. }
    destruct (tess_fold m sub c0 G D Lc0 Ls Hl Hmid i js Hjs (repeat 0 3, 0) eq_refl) as (s & Es & Lsum & HT).
    exists (vadd (K := numR) (vdiv (K := numR) c0 (three (K := numR))) (vdiv (K := numR) (fst s) (snd s))). split.
    { pose proof (apply1_children m 2 i js ltac:(lia) Hc) as Ea. cbn [Nat.sub] in Ea. nr. rewrite Hc0. cbn [bind].
      nr. rewrite Ea. cbn [bind]. cbn [nzero numR] in *. nr. rewrite Es. reflexivity. }
    assert (LV : length (vadd (K := numR) (vdiv (K := numR) c0 (three (K := numR))) (vdiv (K := numR) (fst s) (snd s))) = 3%nat).
    { rewrite vadd_length; unfold vdiv; rewrite ?vscale_length; nr; lia. }
    split; [exact LV|].
    intros js' ps c0' tris Hc' HF Hm HT' Hnz. rewrite (children_det _ _ _ _ _ Hc' Hc) in *. clear js' Hc'.
    destruct (Hm0 i js c0 Hc Hk0) as (ps' & HF' & Hm').
    assert (ps = ps'). { eapply (Forall2_det (look sub) js); [|exact HF|exact HF']. unfold look. intros; congruence. } subst ps'.
    pose proof (is_mean_det _ _ _ _ Hm Hm') as ->. destruct (HT tris HT') as [Hs Hd].
    split; [exact LV|]. intros d Hdd. cbn [fst snd] in Hs, Hd.
    assert (Ev : nth d (vadd (K := numR) (vdiv (K := numR) c0 (three (K := numR))) (vdiv (K := numR) (fst s) (snd s))) 0 =
       nth d c0 0 * (1 / (1 + 1 + 1)) + nth d (fst s) 0 * (1 / snd s)).
    { etransitivity; [apply (zip_nth Rplus); unfold vdiv; rewrite vscale_length; nr; lia|]. unfold vdiv. rewrite !vscale_nth. reflexivity. }
    etransitivity; [apply f_equal2; [exact Ev|reflexivity]|]. rewrite Hs, (Hd d Hdd).
    assert (R0 : nth d (repeat 0 3) 0 = 0) by (apply nth_repeat). rewrite R0.
    transitivity (nth d c0 0 / 3 * Rsum (map tri_S tris) + Rsum (map (fun t => tri_S t * ((nth d (snd (fst t)) 0 + nth d (snd t) 0) / 3)) tris)).
    { field. lra. }
    rewrite <- Rsum_scale, <- Rsum_plus. clear - HT'. induction HT' as [|e [[q a] b] js tris (_ & Hq & _) HF IH]; [reflexivity|].
    cbn [map Rsum]. rewrite IH. cbn [fst snd] in *. subst q. nr. field. }
  exists tab. split.
  { change (nzero (n := numR)) with 0 in *. nr. rewrite E0. cbn [bind]. exact E. }
  split; [exact L|]. split.
  - intros p Hp. apply In_nth_error in Hp as (e & He).
    destruct (H (N.of_nat e) p) as (Lp & _); [rewrite Nat2N.id; assumption|assumption].
  - intros i js ps c0 tris c Hc HF Hm HT Hnz Hlk. destruct (H i c Hlk) as (_ & HH). eapply HH; eassumption.
Qed.

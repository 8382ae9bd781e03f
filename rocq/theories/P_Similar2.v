(** Proofs about similarity transformations: the tessellated centres. *)
From Coq Require Import Reals Lra.
From Verif Require Import P_Base M_Conn M_Index M_Mesh M_Apply S_Mesh P_Apply M_Vec S_Vec P_Vec P_GS P_GS3 M_Geom M_GeomN S_Geom P_Geom P_Centers P_Tri S_Similar P_Similar.
Local Open Scope R_scope.

Lemma both_bind_eq {A B C D} (P : A -> B -> Prop) (Q : C -> D -> Prop) x y (g : A -> outcome C) (h : B -> outcome D) :
  both P x y -> (forall a b, x = Ok a -> P a b -> both Q (g a) (h b)) -> both Q (bind x g) (bind y h).
Proof. destruct x, y; cbn; try contradiction; auto. Qed.

(** ** The surface that is summed up is not negative, and positive where the triangle has an area *)
Lemma norm_nonneg (v : rv) : 0 <= normEuclid (K := numR) v.
Proof. apply sqrt_pos. Qed.
Lemma gs2_nonneg (u v : rv) e0 e1 n0 n1 : gramSchmidtN (K := numR) [u; v] = Ok ([e0; e1], [n0; n1]) -> 0 <= n0 /\ 0 <= n1.
Proof.
  cbn [gramSchmidtN gsn_loop app map]. intros H.
  pose proof (f_equal (fun o => match o with Ok (_, a :: _) => a | _ => 0 end) H) as A.
  pose proof (f_equal (fun o => match o with Ok (_, _ :: a :: _) => a | _ => 0 end) H) as B.
  cbv beta iota in A, B. rewrite <- A, <- B. split; apply norm_nonneg.
Qed.
Lemma tess_sub_grow m sub (c0 : rv) (x x' : rv * R) c : tess_sub (K := numR) m sub c0 x c = Ok x' -> length c0 = m_dim m -> geo_mesh m ->
  snd x <= snd x' /\ forall a b, edge_points m (snd c) a b -> tri_area c0 a b <> 0 -> snd x < snd x'.
Proof.
  intros H L G. unfold tess_sub in H. apply bind_ok in H as (ab & Ee & H).
  destruct (gs2_total (vsub (K := numR) c0 (fst ab)) (vsub (K := numR) c0 (snd ab))) as (e0 & e1 & n0 & n1 & Eg).
  pose proof (gs2_nonneg _ _ _ _ _ _ Eg) as [P0 P1].
  apply bind_ok in H as (gs & Hg & H). assert (gs = ([e0; e1], [n0; n1])) as -> by (pose proof (eq_trans (eq_sym Hg) Eg) as W; injection W; auto).
  cbn [snd] in H. change (vat [n0; n1] 0) with (Ok n0) in H. change (vat [n0; n1] 1) with (Ok n1) in H. cbn [bind] in H.
  apply bind_ok in H as (y & _ & H).
  assert (Ex : snd x' = snd x + n0 * (1 / (1 + 1)) * n1).
  { assert (x' = (fst x', snd x')) as E by now destruct x'. injection H as H. rewrite <- H. reflexivity. }
  assert (P2 : 0 <= n0 * n1) by now apply Rmult_le_pos. split; [lra|].
  intros a b Hab Hne. destruct (edge_points_length _ _ _ _ G Hab) as [La Lb].
  assert (Hca : c0 <> a).
  { intros ->. apply Hne. unfold tri_area. cbv zeta. assert (Z : diff a a = repeat 0 (length a)).
    { clear. induction a as [|t a IH]; [reflexivity|]. cbn. rewrite Rminus_diag_eq by reflexivity. now rewrite IH. }
    rewrite Z. assert (Z2 : forall n w, sprod (repeat 0 n) w = 0).
    { clear. induction n as [|n IH]; intros [|t w]; cbn; try reflexivity. rewrite IH. ring. }
    rewrite !Z2, !Rmult_0_l, Rminus_diag_eq, sqrt_0 by reflexivity. lra. }
  destruct (gs2_tri c0 a b (eq_trans L (eq_sym La)) (eq_trans L (eq_sym Lb)) Hca) as (e0' & e1' & n0' & n1' & Eg' & EA).
  assert (Eab : ab = (a, b)) by (pose proof (eq_trans (eq_sym Ee) (proj1 (ends_edge _ _ _ _) Hab)) as W; injection W; auto). subst ab. cbn [fst snd] in Eg.
  assert (n0 = n0' /\ n1 = n1') as [<- <-] by (pose proof (eq_trans (eq_sym Eg) Eg') as W; injection W; auto).
  pose proof (tri_area_nonneg c0 a b). lra.
Qed.
Lemma tess_fold_grow m sub (c0 : rv) calls : length c0 = m_dim m -> geo_mesh m -> forall x x', foldM (tess_sub (K := numR) m sub c0) calls x = Ok x' ->
  snd x <= snd x' /\ ((exists c a b, In c calls /\ edge_points m (snd c) a b /\ tri_area c0 a b <> 0) -> snd x < snd x').
Proof.
  intros L G. induction calls as [|c r IH]; intros x x' H; cbn [foldM] in H.
  - injection H as <-. split; [apply Rle_refl|]. intros (c & a & b & [] & _).
  - apply bind_ok in H as (y & Hy & H). apply IH in H as [H1 H2]. apply (tess_sub_grow m sub c0 x y c) in Hy as [H3 H4]; [|assumption..].
    split; [eapply Rle_trans; eassumption|]. intros (c' & a & b & [<-|Hin] & Hab & Hne).
    + eapply Rlt_le_trans; [exact (H4 a b Hab Hne)|exact H1].
    + eapply Rle_lt_trans; [exact H3|]. apply H2. exists c', a, b. exact (conj Hin (conj Hab Hne)).
Qed.

Lemma vk_lin d (w p : rv) (k c : R) : length w = d -> length p = d -> va (vk w c) (vk p (c * k)) = vk (va w (vk p k)) c.
Proof.
  intros Lw Lp. pose proof (vscale_len w c d Lw) as G1. pose proof (vscale_len p (c * k) d Lp) as G2. pose proof (vscale_len p k d Lp) as G3.
  apply (vec_ext d); [now apply vadd_len|apply vscale_len; now apply vadd_len|]. intros i.
  rewrite vscale_nth, !(nth_va _ _ i d), !vscale_nth by assumption. ring.
Qed.

Lemma vk_zero d (c : R) : vk (repeat 0 d) c = repeat 0 d.
Proof.
  apply (vec_ext d); [apply vscale_len, repeat_length|apply repeat_length|]. intros j. rewrite vscale_nth, !nth_repeat. ring.
Qed.

Section Sim.
Variables (d : nat) (s : R) (f : point -> point) (Q : rv -> rv).
Hypothesis Hs : 0 < s.
Hypothesis HL : forall p, length p = d -> length (f p) = d.
Hypothesis HQ : isom d Q.
Hypothesis HF : forall p q, length p = d -> length q = d -> vs (f p) (f q) = vk (Q (vs p q)) s.
Variable m : Mesh point.
Hypothesis HV : forall p, In p (m_verts m) -> length p = d.
Notation m' := (image f m).
Notation Pt := (Pt d f).
Notation At := (At d s f Q).

Definition tess_rel (x y : rv * R) : Prop :=
  exists w, length (fst x) = d /\ At (2 / 3 * snd x) (fst x) w /\ fst y = vk w (s * s) /\ snd y = s * s * snd x.
Lemma tess_sub_sim sub sub' c0 c0' x y c : Forall2 Pt sub sub' -> Pt c0 c0' -> tess_rel x y ->
  both tess_rel (tess_sub (K := numR) m sub c0 x c) (tess_sub (K := numR) m' sub' c0' y c).
Proof.
  intros HS Hc (w & Lx & H1 & H2 & H3). destruct x as [x1 x2], y as [y1 y2]. cbn [fst snd] in *. subst y1 y2. unfold tess_sub. eapply both_bind; [apply (edge_pts_sim d f m HV)|]. intros a b [Ha Hb].
  eapply both_bind.
  { apply (gramSchmidtN_sim d s Q Hs HQ). constructor; [now apply (Vt_sub d s f Q HF)|constructor; [now apply (Vt_sub d s f Q HF)|constructor]]. }
  intros g g' [_ Hn]. eapply both_bind; [apply both_vat, Hn|]. intros n0 n0' E0. eapply both_bind; [apply both_vat, Hn|]. intros n1 n1' E1.
  eapply both_bind; [apply both_vat, HS|]. intros p p' Hp. cbn [both].
  set (a0 := nmul (n := numR) (nmul (n := numR) n0 half) n1 : R). set (a1 := nmul (n := numR) (nmul (n := numR) n0' half) n1' : R).
  assert (Ea : a1 = s * s * a0) by (unfold a0, a1, St in *; cbn [nmul numR]; rewrite E0, E1; ring).
  set (k := ndiv (n := numR) (two (K := numR)) (three (K := numR)) : R). assert (Ek : k = 2 / 3) by (unfold k; cbn; field).
  exists (va w (vk p' (a0 * k))). pose proof (proj1 Hp) as Lp. pose proof (HL p Lp) as Lp'. assert (Ep : p' = f p) by apply Hp.
  assert (Lp2 : length p' = d) by (rewrite Ep; exact Lp'). pose proof (At_len d s f Q HL HQ _ _ _ H1) as Lw.
  refine (conj _ (conj _ (conj _ _))).
  - cbn [fst]. apply vadd_len; [exact Lx|]. apply vscale_len, Lp.
  - cbn [fst snd]. apply (At_weak d s f Q (2 / 3 * x2 + 1 * (a0 * k))); [rewrite Ek; change (2 / 3 * x2 + 1 * (a0 * (2 / 3)) = 2 / 3 * (x2 + a0)); ring|].
    apply (At_add d s f Q HL HQ); [exact H1|]. apply (At_scale d s f Q HL HQ), (Pt_At d s f Q HL HF), Hp.
  - change (vadd (K := numR) (vk w (s * s)) (vk p' (a1 * k)) = vk (va w (vk p' (a0 * k))) (s * s)).
    rewrite Ea. rewrite (Rmult_assoc (s * s)). exact (vk_lin d w p' (a0 * k) (s * s) Lw Lp2).
  - change (s * s * x2 + a1 = s * s * (x2 + a0)). rewrite Ea. ring.
Qed.

Lemma tess_face_centers_sim sub sub' : m_dim m = 3%nat -> d = 3%nat -> geo_mesh m -> no_empty m -> spread m ->
  length sub = n_elems m 1 -> (forall p, In p sub -> length p = m_dim m) ->
  (forall e a b c, edge_points m e a b -> look sub e c -> is_mean (m_dim m) [a; b] c) -> Forall2 Pt sub sub' ->
  both (Forall2 Pt) (tess_face_centers (K := numR) m sub) (tess_face_centers (K := numR) m' sub').
Proof.
  intros D Hd G HN HSp Ls Hl Hmid HS. unfold tess_face_centers.
  destruct (center_level_ok m 2 sub G HN ltac:(lia) Ls Hl) as (c0s & E0 & L0 & Hd0 & Hm0).
  pose proof (center_level_sim d s f Q HL HQ HF m 2 sub sub' (eq_trans Hd (eq_sym D)) ltac:(lia) HN HS) as B0. rewrite D in B0, E0.
  eapply both_bind_eq; [exact B0|]. intros t t' Et Ht. assert (t = c0s) as -> by (pose proof (eq_trans (eq_sym Et) E0) as W; injection W; auto).
  rewrite image_n_elems. apply both_mapM. intros i Hi. rewrite image_apply1.
  eapply both_bind_eq; [apply both_vat, Ht|]. intros c0 c0' Ec0 Hc0.
  apply (both_same Pt (apply1 (V := point) m 2 1 i)). intros calls Ecalls.
  assert (Hlt : (i < N.of_nat (n_elems m 2))%N) by now apply in_seqN.
  destruct (children_total m 2 i (geo_wf _ G) ltac:(lia) Hlt) as (js & Hch).
  pose proof (apply1_children m 2 i js ltac:(lia) Hch) as Ea. cbn [Nat.sub] in Ea.
  assert (calls = map (fun j => (i, j)) js) as -> by (pose proof (eq_trans (eq_sym Ecalls) Ea) as W; injection W; auto).
  assert (Hlk : look c0s i c0) by now apply vat_ok.
  destruct (Hm0 i js c0 Hch Hlk) as (ps & HF2 & Hmean).
  assert (Lc0 : length c0 = m_dim m) by apply Hmean.
  assert (HM : Forall2 (fun e p => exists a b, edge_points m e a b /\ is_mean (m_dim m) [a; b] p) js ps).
  { assert (Hjs : forall e, In e js -> (e < N.of_nat (n_elems m 1))%N).
    { intros e He. exact (children_lt m 2 i js e (geo_wf _ G) ltac:(lia) Hch He). }
    clear - HF2 Hmid Hjs G. induction HF2 as [|e p js ps Hep HF2 IH]; constructor.
    - destruct (edge_points_total m e G (Hjs e (or_introl eq_refl))) as (a & b & Hab). exists a, b. split; [exact Hab|]. eapply Hmid; eassumption.
    - apply IH. intros e' He'. apply Hjs. now right. }
  destruct (HSp i js ps c0 Hch HM Hmean) as (e & a & b & Hej & Hab & Hne).
  eapply (both_bind_eq tess_rel).
  - apply both_foldM.
    + intros c x y _ Hxy. now apply tess_sub_sim.
    + exists (repeat 0 d). cbn [fst snd nzero numR]. rewrite <- Hd. pose proof (At_zero d s f Q HL HQ) as AZ. pose proof (repeat_length 0 d) as LZ.
      refine (conj LZ (conj _ (conj _ _))); [apply (At_weak d s f Q 0); [change (0 = 2 / 3 * 0); ring|exact AZ]| |change (0 = s * s * 0); ring].
      exact (eq_sym (vk_zero d (s * s))).
  - intros [x1 x2] [y1 y2] Ex (w & Lx & H1 & H2 & H3). cbn [fst snd] in *. subst y1 y2. cbn [both].
    destruct (tess_fold_grow m sub c0 _ Lc0 G _ _ Ex) as [_ HP]. cbn [snd nzero numR] in HP.
    assert (Hpos : 0 < x2). { apply HP. exists (i, e), a, b. split; [apply in_map_iff; exists e; auto|]. split; assumption. }
    apply (Pt_At d s f Q HL HF).
    pose proof (At_len d s f Q HL HQ _ _ _ H1) as Lw.
    change (At 1 (va (vk c0 (1 / (1 + 1 + 1))) (vk x1 (1 / x2))) (va (vk c0' (1 / (1 + 1 + 1))) (vk (vk w (s * s)) (1 / (s * s * x2))))).
    replace (vk (vk w (s * s)) (1 / (s * s * x2))) with (vk w (1 / x2)).
    2:{ pose proof (vscale_len w (s * s) d Lw) as G1.
        apply (vec_ext d); [now apply vscale_len|now apply vscale_len|]. intros j. rewrite !vscale_nth. field. split; lra. }
    apply (At_weak d s f Q (1 * (1 / (1 + 1 + 1)) + 2 / 3 * x2 * (1 / x2))); [field; lra|].
    apply (At_add d s f Q HL HQ); apply (At_scale d s f Q HL HQ); [apply (Pt_At d s f Q HL HF), Hc0|exact H1].
Qed.
Lemma computeCenters_tess_sim : m_dim m = 3%nat -> d = 3%nat -> geo_mesh m -> no_empty m -> spread m ->
  both (Forall2 (Forall2 Pt)) (computeCenters (K := numR) true m) (computeCenters (K := numR) true m').
Proof.
  intros D Hd G HN HSp. unfold computeCenters. destruct (edge_centers_ok m G) as (e & E & L & Hp & Hm).
  eapply both_bind_eq; [apply (edge_centers_sim d s f Q HL HQ HF m HV)|]. intros t t' Et Ht.
  assert (t = e) as -> by (pose proof (eq_trans (eq_sym Et) E) as W; injection W; auto).
  assert (D1 : @m_dim (vec numR) m = 3%nat) by exact D. assert (D2 : @m_dim (vec numR) m' = 3%nat) by exact D.
  rewrite D1, D2. cbn [Nat.sub center_levels Nat.eqb andb]. rewrite D1, D2. cbn [Nat.eqb andb].
  eapply (both_bind (Forall2 (Forall2 Pt))); [|intros r r' Hr; cbn; now constructor].
  eapply both_bind; [apply tess_face_centers_sim; eassumption|]. intros l l' Hl.
  eapply (both_bind (Forall2 (Forall2 Pt))); [|intros r r' Hr; cbn; now constructor].
  pose proof (center_level_sim d s f Q HL HQ HF m 3 l l' (eq_trans Hd (eq_sym D)) ltac:(lia) HN Hl) as B. rewrite D in B.
  eapply both_bind; [exact B|]. intros l2 l2' Hl2. cbn. constructor; [exact Hl2|constructor].
Qed.
End Sim.

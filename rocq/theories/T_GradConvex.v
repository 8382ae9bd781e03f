(** C109: the Green-Gauss gradient on meshes of convex polyhedra, with the centres the library computes. Exact real arithmetic. *)
From Coq Require Import Reals Lra Permutation.
From Verif Require Import P_Base M_Conn M_Index M_Mesh M_Apply S_Mesh P_Apply M_Vec S_Vec P_Vec P_GS3 M_Geom S_Geom P_Geom P_Tri P_Normals S_Polygon P_Polygon
  P_Volume S_Flux P_Flux T_Flux Ex_Mesh Ex_Geom T_Dist T_Measure2 T_Normals T_Volume T_Gauss2 T_Gauss3 P_Centers T_Centers M_Object T_Object S_Convex P_Convex P_Convex3
  T_Convex2 T_Convex3 S_Gradient T_Gradient Base M_Stream M_VTK S_VTK T_ConvexVTK.
Local Open Scope R_scope.

(** The first moment of a planar polygon, cut into triangles around a point of its plane, does not depend on the point. *)
Lemma fan_moment g n c c0 vs : length g = 3%nat -> length n = 3%nat -> length c = 3%nat -> length c0 = 3%nat -> sprod n n = 1 ->
  (forall v, In v vs -> length v = 3%nat /\ sprod n v = sprod n c) -> sprod n c0 = sprod n c ->
  Rsum (map (fun e => triple (diff (fst e) c) (diff (snd e) c) n * ((sprod g c + sprod g (fst e) + sprod g (snd e)) / 3)) (cycle_edges vs)) =
  sprod g c0 * Rsum (map (fun e => triple (fst e) (snd e) n) (cycle_edges vs)) + 2 * Rsum (map (side_moment g n c0) (cycle_edges vs)).
Proof.
  intros Lg Ln Lc L0 Hu Hv H0.
  transitivity (Rsum (map (fun e => (sprod g c0 * triple (fst e) (snd e) n + 2 * side_moment g n c0 e) -
    ((sprod g c0 * triple c (snd e) n + 2 * side_moment g n c0 (c, snd e)) - (sprod g c0 * triple c (fst e) n + 2 * side_moment g n c0 (c, fst e)))) (cycle_edges vs))).
  - apply Rsum_ext. intros [a b] He. apply cycle_edges_in in He as [Ha Hb]. cbn [fst snd] in *.
    destruct (Hv a Ha) as [La Na]. destruct (Hv b Hb) as [Lb Nb].
    rewrite (moment_split g n c0 c a b) by assumption. rewrite vol6_triple by assumption.
    rewrite (triple_plane (diff a c) (diff b c) (diff c c0) n); auto using d3len; try (rewrite sprod_diff_r by congruence; lra).
    rewrite (sprod_diff_r c c0) by congruence. rewrite H0, (triple_split a b c n) by assumption. field.
  - rewrite Rsum_minus, Rsum_plus, !Rsum_scale, (cycle_telescope (fun v => sprod g c0 * triple c v n + 2 * side_moment g n c0 (c, v))). ring.
Qed.
Lemma fan_area n c c0 vs : length c = 3%nat -> length c0 = 3%nat -> (forall v, In v vs -> length v = 3%nat) ->
  Rsum (map (fun e => triple (diff (fst e) c) (diff (snd e) c) n) (cycle_edges vs)) =
  Rsum (map (fun e => triple (diff (fst e) c0) (diff (snd e) c0) n) (cycle_edges vs)).
Proof.
  assert (Q : forall c, length c = 3%nat -> (forall v, In v vs -> length v = 3%nat) ->
    Rsum (map (fun e => triple (diff (fst e) c) (diff (snd e) c) n) (cycle_edges vs)) = Rsum (map (fun e => triple (fst e) (snd e) n) (cycle_edges vs))).
  { clear. intros c Lc Lv. rewrite (Rsum_ext _ (fun e => triple (fst e) (snd e) n - (triple c (snd e) n - triple c (fst e) n))).
    - rewrite Rsum_minus, (cycle_telescope (fun v => triple c v n)). ring.
    - intros e He. apply cycle_edges_in in He as [H1 H2]. apply triple_split; auto. }
  intros. rewrite !Q by assumption. reflexivity.
Qed.

(** The same for the area centroid of a planar polygon that is star-shaped around both points. *)
Definition unit3 (i : nat) : point := match i with 0%nat => [1;0;0] | 1%nat => [0;1;0] | _ => [0;0;1] end.
Lemma unit3_nth i v : (i < 3)%nat -> length v = 3%nat -> sprod (unit3 i) v = nth i v 0.
Proof. intros Hi Lv. destruct (len3 v Lv) as (a & b & c & ->). destruct i as [|[|[|i]]]; [| | |lia]; cbn [unit3 sprod nth]; ring. Qed.
Lemma centroid_fan x n c c0 (s : R) vs es P : length x = 3%nat -> length n = 3%nat -> length c = 3%nat -> length c0 = 3%nat -> sprod n n = 1 ->
  (forall v, In v vs -> length v = 3%nat /\ sprod n v = sprod n c) -> sprod n c0 = sprod n c ->
  (s = 1 /\ sprod n x < sprod n c \/ s = -1 /\ sprod n c < sprod n x) ->
  (forall e, In e (cycle_edges vs) -> 0 <= vol6 x c (fst e) (snd e)) -> (forall e, In e (cycle_edges vs) -> 0 <= vol6 x c0 (fst e) (snd e)) ->
  traces es (cycle_edges vs) ->
  is_centroid 3 (map (fun e => (c0, fst e, snd e)) es) P -> is_centroid 3 (map (fun e => (c, fst e, snd e)) es) P.
Proof.
  intros Lx Ln Lc L0 Hu Hv H0 Hs Hc Hc0 HT HP. pose proof HP as [LP _]. split; [exact LP|]. intros i Hi.
  assert (Le : forall e, In e es -> length (fst e) = 3%nat /\ length (snd e) = 3%nat).
  { intros e He. destruct (traces_out _ _ _ HT He) as [H|H]; apply cycle_edges_in in H; cbn [rev_edge fst snd] in H; split; apply Hv; tauto. }
  assert (Lu : length (unit3 i) = 3%nat) by (destruct i as [|[|i]]; reflexivity).
  pose proof (centroid_moment (unit3 i) c0 P es Lu L0 Le HP) as E.
  assert (Hss : s * s = 1) by (destruct Hs as [[-> _]|[-> _]]; ring).
  assert (Hs0 : s = 1 /\ sprod n x < sprod n c0 \/ s = -1 /\ sprod n c0 < sprod n x) by (rewrite H0; exact Hs).
  assert (Hv0 : forall v, In v vs -> length v = 3%nat /\ sprod n v = sprod n c0) by (rewrite H0; exact Hv).
  assert (Hsym : forall c e, tri_area c (fst (rev_edge e)) (snd (rev_edge e)) = tri_area c (fst e) (snd e)).
  { intros y [u v]. unfold rev_edge, tri_area. cbn [fst snd]. f_equal. f_equal. rewrite (sprod_comm (diff v y) (diff u y)). ring. }
  assert (F1 : forall q, Rsum (map (fun e => tri_area c (fst e) (snd e) * q e) (cycle_edges vs)) =
     s / 2 * Rsum (map (fun e => triple (diff (fst e) c) (diff (snd e) c) n * q e) (cycle_edges vs))).
  { intros q. pose proof (face_moment x c n s 1 vs n q Lx Lc Ln Ln Hv Hu Hs (or_introl eq_refl)) as Q. rewrite Hu, Rmult_1_r in Q.
    transitivity (s * (s * Rsum (map (fun e => tri_area c (fst e) (snd e) * q e) (cycle_edges vs)))); [rewrite <- Rmult_assoc, Hss; ring|].
    rewrite Q; [field|]. intros e He. rewrite Rmult_1_l. auto. }
  assert (F0 : forall q, Rsum (map (fun e => tri_area c0 (fst e) (snd e) * q e) (cycle_edges vs)) =
     s / 2 * Rsum (map (fun e => triple (diff (fst e) c0) (diff (snd e) c0) n * q e) (cycle_edges vs))).
  { intros q. pose proof (face_moment x c0 n s 1 vs n q Lx L0 Ln Ln Hv0 Hu Hs0 (or_introl eq_refl)) as Q. rewrite Hu, Rmult_1_r in Q.
    transitivity (s * (s * Rsum (map (fun e => tri_area c0 (fst e) (snd e) * q e) (cycle_edges vs)))); [rewrite <- Rmult_assoc, Hss; ring|].
    rewrite Q; [field|]. intros e He. rewrite Rmult_1_l. auto. }
  assert (Tr : forall h : point * point -> R, (forall e, h (rev_edge e) = h e) -> Rsum (map h es) = Rsum (map h (cycle_edges vs))) by (intros h Hh; apply traces_sum; assumption).
  assert (EA : Rsum (map (fun e => tri_area c (fst e) (snd e)) es) = Rsum (map (fun e => tri_area c0 (fst e) (snd e)) es)).
  { rewrite (Tr (fun e => tri_area c (fst e) (snd e)) (Hsym c)), (Tr (fun e => tri_area c0 (fst e) (snd e)) (Hsym c0)).
    pose proof (F1 (fun _ => 1)) as A1. pose proof (F0 (fun _ => 1)) as A0.
    assert (R1 : forall h : point * point -> R, Rsum (map (fun e => h e * 1) (cycle_edges vs)) = Rsum (map h (cycle_edges vs))) by (intros h; apply Rsum_ext; intros; ring).
    rewrite !R1 in A1, A0. rewrite A1, A0. f_equal. apply fan_area; auto. intros v H. apply Hv. exact H. }
  assert (EM : Rsum (map (fun e => tri_area c (fst e) (snd e) * ((sprod (unit3 i) c + sprod (unit3 i) (fst e) + sprod (unit3 i) (snd e)) / 3)) es) =
               Rsum (map (fun e => tri_area c0 (fst e) (snd e) * ((sprod (unit3 i) c0 + sprod (unit3 i) (fst e) + sprod (unit3 i) (snd e)) / 3)) es)).
  { rewrite (Tr (fun e => tri_area c (fst e) (snd e) * ((sprod (unit3 i) c + sprod (unit3 i) (fst e) + sprod (unit3 i) (snd e)) / 3))).
    2: { intros e. rewrite Hsym. unfold rev_edge. cbn [fst snd]. f_equal. field. }
    rewrite (Tr (fun e => tri_area c0 (fst e) (snd e) * ((sprod (unit3 i) c0 + sprod (unit3 i) (fst e) + sprod (unit3 i) (snd e)) / 3))).
    2: { intros e. rewrite Hsym. unfold rev_edge. cbn [fst snd]. f_equal. field. }
    rewrite F1, F0. f_equal. rewrite (fan_moment (unit3 i) n c c0 vs), (fan_moment (unit3 i) n c0 c0 vs); auto. }
  rewrite !map_map. unfold tri_S. cbn [fst snd]. rewrite EA. rewrite <- (unit3_nth i P Hi LP).
  refine (eq_trans E _). rewrite <- EM. apply Rsum_ext. intros [a b] He. destruct (Le _ He) as [La Lb]. cbn [fst snd] in *.
  rewrite !unit3_nth by assumption. reflexivity.
Qed.

(** The mean of the vertices of a triangle is its centroid. *)
Lemma triangle_centroid a b d c es : length a = 3%nat -> length b = 3%nat -> length d = 3%nat -> is_mean 3 [a; b; d] c ->
  traces es (cycle_edges [a; b; d]) -> is_centroid 3 (map (fun e => (c, fst e, snd e)) es) c.
Proof.
  intros La Lb Ld [Lc Hm] HT. split; [exact Lc|]. intros i Hi. rewrite !map_map. unfold tri_S. cbn [fst snd].
  assert (Hsym : forall e, tri_area c (fst (rev_edge e)) (snd (rev_edge e)) = tri_area c (fst e) (snd e)).
  { intros [u v]. unfold rev_edge, tri_area. cbn [fst snd]. f_equal. f_equal. rewrite (sprod_comm (diff v c) (diff u c)). ring. }
  rewrite (traces_sum (fun e => tri_area c (fst e) (snd e)) es (cycle_edges [a; b; d]) Hsym HT).
  rewrite (traces_sum (fun e => tri_area c (fst e) (snd e) * ((nth i c 0 + nth i (fst e) 0 + nth i (snd e) 0) / 3)) es (cycle_edges [a; b; d]));
    [|intros e; rewrite Hsym; unfold rev_edge; cbn [fst snd]; f_equal; field|exact HT].
  cbn [cycle_edges path_edges app map Rsum fst snd].
  assert (Q : tri_area c a b = tri_area c b d /\ tri_area c d a = tri_area c b d).
  { pose proof (Hm 0%nat ltac:(lia)) as H0. pose proof (Hm 1%nat ltac:(lia)) as H1. pose proof (Hm 2%nat ltac:(lia)) as H2.
    destruct (len3 a La) as (a0 & a1 & a2 & ->). destruct (len3 b Lb) as (b0 & b1 & b2 & ->). destruct (len3 d Ld) as (d0 & d1 & d2 & ->).
    destruct (len3 c Lc) as (c0 & c1 & c2 & ->). cbn [nth map Rsum length INR] in *. subst c0 c1 c2.
    split; unfold tri_area; f_equal; f_equal; simpl; field. }
  destruct Q as [-> ->]. pose proof (Hm i Hi) as E. cbn [map Rsum length] in E. replace (INR 3) with 3 in E by (simpl; ring).
  set (S := tri_area c b d). assert (E3 : nth i a 0 + nth i b 0 + nth i d 0 = 3 * nth i c 0) by (rewrite E; field).
  transitivity (S * (3 * nth i c 0 + 2 * (3 * nth i c 0)) / 3); [field|]. rewrite <- E3 at 2. field.
Qed.

(** The tessellated centres of convex faces are their area centroids. *)
Lemma tess_centroids (u : UMesh numR) poly u' : let m := u_mesh u in convex_mesh3 m poly -> initializeCenters (K := numR) true u = Ok u' ->
  forall i fs f c, ring m i fs -> In f fs -> nth_error (u_fc u') (N.to_nat f) = Some c ->
    exists c0 face ed, nth_error (m_faces m) (N.to_nat f) = Some face /\ Forall2 (fun e ab => edge_points m e (fst ab) (snd ab)) (f_subs face) ed /\
      traces ed (cycle_edges (poly i f)) /\ rel_inside (poly i f) c0 /\ is_centroid 3 (map (fun e => (c0, fst e, snd e)) ed) c.
Proof.
  intros m X EI i fs f c HR Hin Hcf. pose proof (cx3_geo _ _ X) as G. pose proof (cx3_dim _ _ X) as D. pose proof (cx3_faces _ _ X) as HN.
  assert (Hne : forall i fs f, ring m i fs -> In f fs -> poly i f <> []).
  { clear -X. intros i fs f HR Hf. destruct (cx3_cell _ _ X i fs HR) as [[_ HS] _]. apply (HS (poly i f)). apply in_map. exact Hf. }
  assert (Sub2 : forall f face, nth_error (m_faces m) (N.to_nat f) = Some face -> children m 2 f (f_subs face)).
  { clear -D. intros f face Hf. unfold children, subs. nr. rewrite D. cbn. apply vat_ok in Hf. rewrite Hf. reflexivity. }
  destruct (proj2 (C46_tessellated m G HN) D) as (es & ft & ct & E & Le & Lf & Lc & He & Hf & Hc).
  destruct (n_elems_3 m D) as [N2 N3]. pose proof (eq_trans Lf N2) as Lf'. pose proof (eq_trans Lc N3) as Lc'.
  assert (EI' : initializeCenters (K := numR) true u = Ok (mkU m ft ct (u_bcc u))).
  { unfold initializeCenters. fold m. refine (eq_trans (f_equal (fun o => bind o _) E) _). cbn [bind].
    assert (D' : @m_dim (vec numR) m = 3%nat) by exact D. rewrite D'.
    rewrite (centerAt_tab [es; ft; ct] (3 - 1) ft (length (m_faces m))); [|reflexivity|exact Lf'].
    cbn [bind]. rewrite (centerAt_tab [es; ft; ct] 3 ct (length (m_cells m))); [reflexivity|reflexivity|exact Lc']. }
  pose proof (eq_trans (eq_sym EI) EI') as Q. injection Q as ->. cbn [u_fc] in Hcf. clear EI EI'.
      destruct (ring_sides m i fs f HR Hin) as (face & Hface & _). destruct (cx3_cell _ _ X i fs HR) as [[_ HS] HT].
      destruct (HT f face Hin Hface) as (ed & HEd & HTr). clear HT.
      assert (Lv : forall v, In v (poly i f) -> length v = 3%nat) by (intros v; apply (poly_len m poly X i fs f v HR Hin)).
      destruct (HS (poly i f)) as (_ & n & k & Ln & Hk & Hle & (ws & w & Hws & Hw & Hlt) & HC); [apply in_map; exact Hin|].
      assert (Lw : length w = 3%nat).
      { apply in_map_iff in Hws as (g & <- & Hg). apply (poly_len m poly X i fs g w HR Hg Hw). }
      (* edge midpoints *)
      assert (Mid : exists ps, Forall2 (fun e p => nth_error es (N.to_nat e) = Some p) (f_subs face) ps /\ Forall2 (fun e p => is_mean 3 [fst e; snd e] p) ed ps).
      { clear -HEd Le He D. induction HEd as [|e ab js ed Hab HEd IH]; [exists []; split; constructor|]. destruct IH as (ps & H1 & H2).
        assert (Hl : (e < N.of_nat (n_elems m 1))%N) by (destruct Hab as (p & q & Hs & _); eapply subs_lt; [|exact Hs]; nr; lia).
        destruct (nth_error es (N.to_nat e)) as [p|] eqn:Ep; [|apply nth_error_None in Ep; nr; lia].
        exists (p :: ps). split; constructor; auto. exact (He e _ _ p Hab Ep). }
      destruct Mid as (ps & Hps & Hmid).
      assert (Hpsne : ps <> []).
      { intros ->. inversion Hmid; subst. apply traces_length in HTr. rewrite cycle_length in HTr. apply (Hne i fs f HR Hin). destruct (poly i f); [reflexivity|discriminate]. }
      set (c0 := map (fun j => Rsum (map (fun p => nth j p 0) ps) / INR (length ps)) [0; 1; 2]%nat).
      assert (Hc0 : is_mean 3 ps c0).
      { split; [reflexivity|]. intros j Hj. unfold c0. destruct j as [|[|[|j]]]; [reflexivity|reflexivity|reflexivity|lia]. }
      pose proof (midpoints_mean 3 ed ps (poly i f) c0 Hmid HTr Hc0) as Hm0.
      pose proof (mean_inside _ _ Hm0 (Hne i fs f HR Hin)) as Hi0.
      assert (Or : forall e, In e (cycle_edges (poly i f)) -> 0 < vol6 w c0 (fst e) (snd e)) by (intros e Hec; exact (proj1 (proj2 (face_orient n k (poly i f) w c0 e Ln Lv Lw Hk HC Hi0 Hlt Hec)))).
      assert (Or' : forall e, In e ed -> vol6 w c0 (fst e) (snd e) <> 0).
      { intros e Hed. destruct (traces_out _ _ _ HTr Hed) as [Q|Q]; apply Or in Q; [lra|]. cbn [rev_edge fst snd] in Q. rewrite vol6_flip in Q. lra. }
      assert (Le3 : forall e, In e ed -> length (fst e) = 3%nat /\ length (snd e) = 3%nat /\ In (fst e) (poly i f) /\ In (snd e) (poly i f)).
      { intros e Hed. assert (Q : In (fst e) (poly i f) /\ In (snd e) (poly i f)).
        { destruct (traces_out _ _ _ HTr Hed) as [Q|Q]; apply cycle_edges_in in Q; cbn [rev_edge fst snd] in Q; tauto. }
        destruct Q. splits; auto. }
      set (tris := map (fun e => (c0, fst e, snd e)) ed).
      assert (HS0 : 0 < Rsum (map tri_S tris)).
      { assert (HP : forall e, In e ed -> 0 < tri_area c0 (fst e) (snd e)).
        { intros e Hed. destruct (Le3 e Hed) as (A & B & _ & _).
          pose proof (Or' e Hed) as Hv. rewrite <- (vol6_rot w (fst e) (snd e) c0) in Hv.
          destruct (gs3_outward c0 (fst e) (snd e) w (proj1 Hm0) A B Lw Hv) as (e0' & e1 & e2 & n0 & n1 & n2 & _ & _ & EA & _ & _ & P).
          assert (tri_area c0 (fst e) (snd e) <> 0) by (rewrite <- EA; lra).
          assert (0 <= tri_area c0 (fst e) (snd e)) by (unfold tri_area; apply Rmult_le_pos; [apply sqrt_pos|lra]). lra. }
        unfold tris. rewrite map_map. cbn [tri_S fst snd]. unfold tri_S. cbn [fst snd]. apply Rsum_pos; [intros e Hed; apply Rlt_le, HP, Hed|].
        destruct ed as [|e ed]; [exfalso; apply Hpsne; inversion Hmid; reflexivity|]. exists e. split; [left; reflexivity|apply HP; left; reflexivity]. }
      exists c0, face, ed. splits; auto.
      apply (Hf f (f_subs face) ps c0 tris c); auto; [|lra].
        unfold tris. assert (Q : forall e, In e ed -> c0 <> fst e).
        { intros e Hed Ee. apply (Or' e Hed). rewrite Ee. unfold vol6, det3. ring. }
        clear -HEd Q. induction HEd as [|e ab js ed Hab HEd IH]; [constructor|]. cbn [map]. constructor; [|apply IH; intros; apply Q; right; assumption].
        cbn [fst snd]. splits; auto. apply Q. left. reflexivity.
Qed.

Lemma centers_inside3 (u : UMesh numR) poly cc fc : let m := u_mesh u in convex_mesh3 m poly ->
    length fc = length (m_faces m) -> length cc = length (m_cells m) ->
    (forall i fs f c, ring m i fs -> In f fs -> nth_error fc (N.to_nat f) = Some c -> rel_inside (poly i f) c) ->
    (forall i fs x, ring m i fs -> nth_error cc (N.to_nat i) = Some x ->
       exists cs, Forall2 (fun f c => nth_error fc (N.to_nat f) = Some c) fs cs /\ is_mean 3 cs x) -> centers_inside m poly cc fc.
Proof.
  intros m X Lf Lc Hfc Hcc. pose proof (cx3_geo _ _ X) as G. pose proof (cx3_dim _ _ X) as D.
  assert (Hne : forall i fs f, ring m i fs -> In f fs -> poly i f <> []).
  { intros i fs f HR Hf. destruct (cx3_cell _ _ X i fs HR) as [[_ HS] _]. apply (HS (poly i f)). apply in_map. exact Hf. }
  assert (HXin : forall i fs x, ring m i fs -> nth_error cc (N.to_nat i) = Some x -> rel_inside (concat (map (poly i) fs)) x).
  { intros i fs x HR Hx. destruct (Hcc i fs x HR Hx) as (cs & HF & Hm). apply (inside_union _ cs).
    - destruct HR as (f0 & r & -> & _). discriminate.
    - apply Forall2_map_l'. assert (Hinc : incl fs fs) by apply incl_refl. revert Hinc HF. generalize fs at 1 3 4 as gs. clear Hm.
      intros gs Hinc HF. induction HF as [|f c gs cs Hc HF IH]; constructor; [|apply IH; intros g Hg; apply Hinc; right; exact Hg].
      apply (Hfc i fs f c HR); [apply Hinc; left; reflexivity|exact Hc].
    - exact Hm. }
  assert (I : centers_inside m poly cc fc).
  { split; [exact Lc|]. split; [|split; [exact Lf|split]].
    - intros p Hp. destruct (In_nth_error _ _ Hp) as (j & Hj). assert (Hlt : (j < length cc)%nat) by (apply nth_error_Some; nr; congruence).
      destruct (wf_ring _ (geo_wf _ G) (N.of_nat j)) as (fs & HR); [nr; lia|]. apply (HXin (N.of_nat j) fs p HR). rewrite Nat2N.id. exact Hj.
    - intros p Hp. destruct (In_nth_error _ _ Hp) as (j & Hj). assert (Hlt : (j < length fc)%nat) by (apply nth_error_Some; nr; congruence).
      destruct (nth_error (m_faces m) j) as [face|] eqn:Ef; [|apply nth_error_None in Ef; nr; lia].
      assert (Q : exists i, is_cell m i = true /\ (cellLeft (bc (f_conn face)) = i \/ cellRight (bc (f_conn face)) = i)).
      { destruct (cx3_side _ _ X face (nth_error_In _ _ Ef)) as [H|[_ H]]; eauto. }
      destruct Q as (i & Hi & Hs). rewrite <- (Nat2N.id j) in Ef, Hj.
      destruct (side_ring m poly X _ face i Ef Hi Hs) as (fs & HR & Hin). exact (proj1 (Hfc i fs _ p HR Hin Hj)).
    - intros i fs f x c HR Hin Hx Hc. destruct (cx3_cell _ _ X i fs HR) as [[_ HS] _].
      destruct (HS (poly i f)) as (_ & n & k & Ln & Hk & Hle & Hex & HC); [apply in_map; exact Hin|].
      pose proof (HXin i fs x HR Hx) as HI. pose proof (Hfc i fs f c HR Hin Hc) as HIc.
      assert (Lall : forall p, In p (concat (map (poly i) fs)) -> length p = 3%nat).
      { intros p Hp. apply in_concat in Hp as (ws & Hws & Hp). apply in_map_iff in Hws as (g & <- & Hg). apply (poly_len m poly X i fs g p HR Hg Hp). }
      assert (Hxk : sprod n x < k).
      { apply (inside_le n k _ x Ln Lall HI).
        - intros p Hp. apply in_concat in Hp as (ws & Hws & Hp). eapply Hle; eassumption.
        - destruct Hex as (ws & v & Hws & Hv & Hlt). exists v. split; [apply in_concat; eauto|exact Hlt]. }
      assert (Lv : forall v, In v (poly i f) -> length v = 3%nat) by (intros v; apply (poly_len m poly X i fs f v HR Hin)).
      assert (FO : forall e, In e (cycle_edges (poly i f)) -> 0 < vol6 x c (fst e) (snd e) /\ sprod n n <> 0 /\ sprod n c = k).
      { intros e He. apply (face_orient n k (poly i f) x c e Ln Lv (proj1 HI) Hk HC HIc Hxk He). }
      assert (Hex1 : exists e, In e (cycle_edges (poly i f))).
      { destruct (cycle_edges (poly i f)) as [|e l] eqn:Ec; [|exists e; left; reflexivity]. exfalso. apply (Hne i fs f HR Hin).
        apply (f_equal (@length _)) in Ec. rewrite cycle_length in Ec. destruct (poly i f); [reflexivity|discriminate]. }
      destruct Hex1 as (e1 & He1). destruct (FO e1 He1) as (_ & Hnn & Hck). exists n, k. splits; auto.
      + intros g v Hg Hv. apply (Hle (poly i g) v); [apply in_map; exact Hg|exact Hv].
      + intros e He. apply FO. exact He. }
  exact I.
Qed.

(** C109, space: for a mesh of convex polyhedra (C78), with the centres of initializeCenters, the areas and volumes of
    computeElementMeasures and the normals of computeFaceNormals: in every cell the sum over the faces of
    +-area * (normal . w) * u(centre of the face) is volume * (grad u . w) for every affine u, if the centres are those of the
    tessellated method, or if the faces of the cell are triangles. *)
Theorem C109_convex3 : forall (u : UMesh numR) poly tess tess' tess'', let m := u_mesh u in convex_mesh3 m poly ->
  exists u' ls Fs Vs ns, initializeCenters (K := numR) tess u = Ok u' /\ u_mesh u' = m /\
    elementMeasures (K := numR) tess' u' = Ok [ls; Fs; Vs] /\ faceNormals (K := numR) tess'' u' = Ok ns /\
    forall i fs, ring m i fs -> nth_error Vs (N.to_nat i) = Some (poly_volume (map (poly i) fs)) /\ 0 < poly_volume (map (poly i) fs) /\
      ((tess = true \/ forall f, In f fs -> length (poly i f) = 3%nat) -> forall g k w, length g = 3%nat -> length w = 3%nat ->
       Rsum (map (fun f => side_sign m f i * nth (N.to_nat f) Fs 0 * sprod (nth (N.to_nat f) ns []) w *
                           (sprod g (nth (N.to_nat f) (u_fc u') []) + k)) fs) = poly_volume (map (poly i) fs) * sprod g w).
Proof.
  intros u poly tess tess' tess'' m X.
  destruct (init3 u poly tess X) as (cc & fc & E & Lf & Lc & Hfc & Hcc). fold m in E, Lf, Lc, Hfc, Hcc.
  pose proof (cx3_geo _ _ X) as G. pose proof (cx3_dim _ _ X) as D. pose proof (cx3_faces _ _ X) as HN.
  assert (I : centers_inside m poly cc fc).
  { apply (centers_inside3 u poly cc fc X Lf Lc); [|exact Hcc]. intros i fs f c HR Hin Hc. apply (Hfc i fs f c HR Hin Hc). }
  pose proof (convex_regular m poly cc fc X I) as RG. pose proof (convex_apart m poly cc fc X I) as HA.
  pose proof (convex_star m poly cc fc X I) as HS.
  destruct (convex3_core m poly cc fc X I) as (ls & Fs & Vs & ns & EM & EN & LF & Ln & LV & He & HVol & _).
  exists (mkU m fc cc (u_bcc u)), ls, Fs, Vs, ns. cbn [u_mesh u_fc u_cc]. assert (D' : @m_dim (vec numR) m = 3%nat) by exact D.
  splits; auto.
  - unfold elementMeasures. cbn [u_mesh u_fc u_cc]. rewrite D'. refine (eq_trans (f_equal (fun o => bind o _) EM) _). reflexivity.
  - unfold faceNormals. cbn [u_mesh u_fc u_cc]. rewrite D'. destruct tess''; [|exact EN]. exact (eq_trans (tess_same m poly cc fc X I) EN).
  - intros i fs HR. destruct (HVol i fs HR) as [HV Hpos]. splits; auto. intros HT g k w Lg Lw.
    assert (Hi : is_cell m i = true).
    { destruct HR as (f0 & r & _ & Hc & _). apply N.ltb_lt. assert (N.to_nat i < length (m_cells m))%nat by (apply nth_error_Some; nr; congruence). lia. }
    destruct (cell_center m poly cc fc I i Hi) as (x & Hx & Lx).
    apply (C109_gradient3 m cc fc ls Fs Vs ns RG EM EN i x fs (poly_volume (map (poly i) fs)) (fun f => side_sign m f i) (fun f => nth (N.to_nat f) fc []));
      auto.
    + apply HS. apply N.ltb_lt. exact Hi.
    + intros f Hf. apply (C75_left_to_right m cc fc ns RG HA (cx3_size _ _ X) EN i x fs f Hx HR Hf).
    + intros f Hf face es c Hface HEs Hc. assert (Wc : nth (N.to_nat f) fc [] = c) by (apply nth_error_nth; exact Hc). rewrite Wc.
      destruct (cx3_cell _ _ X i fs HR) as [[_ HSol] HTr].
      destruct (HTr f face Hf Hface) as (es' & HEs' & Htr).
      assert (es' = es).
      { clear -HEs HEs'. revert es' HEs'. induction HEs as [|j ab js es Hj HEs IH]; intros es' H; inversion H as [|? ab' ? es1 Hj' H1]; subst; [reflexivity|].
        destruct ab as [a b], ab' as [a' b']. cbn [fst snd] in *. destruct (edge_points_det _ _ _ _ _ _ Hj Hj') as [-> ->]. f_equal. apply IH. exact H1. }
      subst es'. destruct (Hfc i fs f c HR Hf Hc) as [Hin Hmean].
      assert (Lv : forall v, In v (poly i f) -> length v = 3%nat) by (intros v; apply (poly_len m poly X i fs f v HR Hf)).
      destruct tess.
      * destruct (tess_centroids u poly _ X E i fs f c HR Hf Hc) as (c0 & face' & ed & Hface' & HEd & Htr' & Hin0 & HC0). fold m in Hface', HEd.
        pose proof (eq_trans (eq_sym Hface) Hface') as Qf. injection Qf as <-.
        assert (ed = es).
        { clear -HEs HEd. revert ed HEd. induction HEs as [|j ab js es Hj HEs IH]; intros es' H; inversion H as [|? ab' ? es1 Hj' H1]; subst; [reflexivity|].
          destruct ab as [a b], ab' as [a' b']. cbn [fst snd] in *. destruct (edge_points_det _ _ _ _ _ _ Hj Hj') as [-> ->]. f_equal. apply IH. exact H1. }
        subst ed. destruct I as (_ & _ & _ & _ & HI). destruct (HI i fs f x c HR Hf Hx Hc) as (n & kk & Lnn & Hnn & Hk & Hck & Hxk & Hle & Hvol).
        (* the unit normal *)
        destruct (convex_face_polys m poly cc fc X) with (i := i) (fs := fs) (x := x) as (ps & HPs & HM & _); auto.
        { apply (centers_inside3 u poly cc fc X Lf Lc); [|exact Hcc]. intros i1 fs1 f1 c1 HR1 Hin1 Hc1. apply (Hfc i1 fs1 f1 c1 HR1 Hin1 Hc1). }
        assert (Hp : exists p, face_poly m fc f p /\ snd p = poly i f).
        { clear -HPs HM Hf. revert ps HPs HM. induction fs as [|f0 fs IH]; intros ps HPs HM; [destruct Hf|]. inversion HPs as [|? p ? ps' H1 H2]; subst.
          cbn [map] in HM. injection HM as HM1 HM2. destruct Hf as [<-|Hf]; [exists p; auto|]. eapply IH; eassumption. }
        destruct Hp as (p & Hfp & Hsp). destruct (face_facts m cc fc ls Fs Vs ns RG EM EN f p Hfp) as (_ & Ec & Ln1 & Hu & Hpl & _).
        rewrite Hsp in Hpl. assert (Ep : fst p = c) by exact (eq_trans (eq_sym Ec) Wc). rewrite Ep in Hpl. set (nn := nth (N.to_nat f) ns []) in *.
        apply (centroid_fan x nn c c0 (side_sign m f i) (poly i f) es c); auto.
        -- exact (proj1 Hin).
        -- exact (proj1 Hin0).
        -- apply (inside_eq nn (sprod nn c) (poly i f) c0); auto. intros v Hv. apply Hpl. exact Hv.
        -- pose proof (C75_left_to_right m cc fc ns RG HA (cx3_size _ _ X) EN i x fs f Hx HR Hf) as Q. rewrite <- Wc. exact Q.
        -- intros e Hec. apply Rlt_le. apply Hvol. exact Hec.
        -- intros e Hec. apply Rlt_le. destruct (HSol (poly i f)) as (_ & n1 & k1 & L1 & Hk1 & Hle1 & Hex1 & HC1); [apply in_map; exact Hf|].
           assert (Hx1 : sprod n1 x < k1).
           { destruct (C78_convex3 u poly true tess' tess'' X) as (u2 & l2 & F2 & V2 & n2 & E2 & _ & _ & _ & _ & _ & _ & _ & _ & _ & HX & _).
             pose proof (eq_trans (eq_sym E) E2) as Q. injection Q as EQ. rewrite <- EQ in HX. cbn [u_cc] in HX. destruct (HX i fs HR) as (x' & Hx' & Hins & _).
             pose proof (eq_trans (eq_sym Hx) Hx') as Q. injection Q as <-.
             assert (Lall : forall p, In p (concat (map (poly i) fs)) -> length p = 3%nat).
             { intros q Hq. apply in_concat in Hq as (ws & Hws & Hq). apply in_map_iff in Hws as (h & <- & Hh). apply (poly_len m poly X i fs h q HR Hh Hq). }
             apply (inside_le n1 k1 _ x L1 Lall Hins).
             - intros q Hq. apply in_concat in Hq as (ws & Hws & Hq). eapply Hle1; eassumption.
             - destruct Hex1 as (ws & v & Hws & Hv & Hlt). exists v. split; [apply in_concat; eauto|exact Hlt]. }
           exact (proj1 (proj2 (face_orient n1 k1 (poly i f) x c0 e L1 Lv Lx Hk1 HC1 Hin0 Hx1 Hec))).
      * destruct HT as [HT|HT]; [discriminate|]. specialize (HT f Hf). specialize (Hmean eq_refl).
        destruct (poly i f) as [|v0 [|v1 [|v2 [|? ?]]]] eqn:EP; try discriminate HT.
        apply (triangle_centroid v0 v1 v2 c es); auto; apply Lv; simpl; tauto.
Qed.
Print Assumptions C109_convex3.

(** C109. From a VTK file of convex polygons (C77): in every loaded cell the Green-Gauss sum is the area of the polygon of the file
    times the derivative of the affine field. *)
Theorem C109_file : forall (F : vtk_file R) l1 l2 rest (m0 : Mesh (R * R)) old tess fc cc bcc,
  convex_grid2 F -> one_line l1 -> one_line l2 -> m_dim m0 = 2%nat -> m_mid m0 = [] ->
  exists m types u' ls As ns, loadVTK2 (vtk_header l1 l2 ++ vtk_body F ++ rest) m0 old = Ok (m, types) /\
    length (m_cells m) = length (vf_cells F) /\
    initializeCenters (K := numR) tess (mkU (plane_mesh m) fc cc bcc) = Ok u' /\
    elementMeasures (K := numR) tess u' = Ok [ls; As] /\ faceNormals (K := numR) tess u' = Ok ns /\
    forall i fs, ring (plane_mesh m) i fs -> forall g k w, length g = 2%nat -> length w = 2%nat ->
      Rsum (map (fun f => side_sign (plane_mesh m) f i * nth (N.to_nat f) ls 0 * sprod (nth (N.to_nat f) ns []) w *
                          (sprod g (nth (N.to_nat f) (u_fc u') []) + k)) fs) = shoelace (cell_polygon F i) * sprod g w.
Proof.
  intros F l1 l2 rest m0 old tess fc cc bcc HF H1 H2 HD HM.
  destruct (C77_vtk2 F l1 l2 rest m0 old HF H1 H2 HD HM) as (m & types & E & L & X).
  destruct (C109_convex2 (mkU (plane_mesh m) fc cc bcc) _ tess X) as (u & ls & As & ns & Ei & _ & EM & EN & HG).
  exists m, types, u, ls, As, ns. splits; auto. intros i fs HR. exact (proj2 (proj2 (HG i fs HR))).
Qed.
Print Assumptions C109_file.

(** * Non-vacuity: the two tetrahedra of C78 and the field x + 2y + 3z; the file of C77. *)
Example C109_instance : convex_grid2 gridC /\ convex_mesh3 tetsR tetsP /\ ring tetsR 0 [0;1;2;3]%N /\ ring tetsR 1 [4;5;6;0]%N /\
  forall tess, exists u' ls Fs Vs ns, initializeCenters (K := numR) tess (fresh (K := numR) tetsR) = Ok u' /\
    elementMeasures (K := numR) tess u' = Ok [ls; Fs; Vs] /\ faceNormals (K := numR) tess u' = Ok ns /\
    Rsum (map (fun f => side_sign tetsR f 1 * nth (N.to_nat f) Fs 0 * sprod (nth (N.to_nat f) ns []) [0;1;0] *
      (sprod [1;2;3] (nth (N.to_nat f) (u_fc u') []) + 7)) [4;5;6;0]%N) = 2/3.
Proof.
  destruct C78_instance as (X & R0 & R1 & V0 & V1 & _). splits; auto; [exact gridC_convex|]. intros tess.
  destruct (C109_convex3 (fresh (K := numR) tetsR) tetsP tess tess tess tets_convex) as (u' & ls & Fs & Vs & ns & E & _ & EM & EN & HG).
  exists u', ls, Fs, Vs, ns. splits; auto. destruct (HG 1%N _ R1) as (_ & _ & Q).
  refine (eq_trans (Q _ [1;2;3] 7 [0;1;0] eq_refl eq_refl) _).
  - right. intros f [<-|[<-|[<-|[<-|[]]]]]; reflexivity.
  - rewrite V1. cbn [sprod]. field.
Qed.

(** Theorems about orientation of edges (C47) and about distances across faces (C48). *)
From Coq Require Import Reals Lra.
From Verif Require Import P_Base M_Conn M_Index P_Index T_Index M_Mesh M_Apply S_Mesh P_Apply M_Vec S_Vec P_Vec P_GS3 M_Geom S_Geom P_Geom P_Normals P_Volume T_Normals Ex_Mesh Ex_Geom.
Local Open Scope R_scope.

Lemma gtb_iff (x y : R) : ngtb (n := numR) x y = true <-> y < x.
Proof. simpl. unfold Rgtb. destruct (Rlt_dec y x); split; intros; try discriminate; try reflexivity; lra. Qed.

(** C47. Planar case: the edge a -> b has the point c on its left exactly when c, a, b turn left; reversing a
    non-degenerate edge reverses the answer. *)
Theorem C47_edge2 : forall a b c : point, length a = 2%nat -> length b = 2%nat -> length c = 2%nat ->
  (edgeIsLeft2 (K := numR) a b c = true <-> 0 < area2 c a b) /\
  (area2 c a b <> 0 -> edgeIsLeft2 (K := numR) b a c = negb (edgeIsLeft2 (K := numR) a b c)).
Proof.
  assert (Q : forall a b c : point, length a = 2%nat -> length b = 2%nat -> length c = 2%nat ->
    edgeIsLeft2 (K := numR) a b c = true <-> 0 < area2 c a b).
  { intros a b c La Lb Lc. destruct (len2 a La) as (a0 & a1 & ->). destruct (len2 b Lb) as (b0 & b1 & ->). destruct (len2 c Lc) as (c0 & c1 & ->).
    unfold edgeIsLeft2. etransitivity; [apply gtb_iff|]. unfold area2, det2, px, py, co. simpl. split; intros; nr; lra. }
  intros a b c La Lb Lc. split; [apply Q; assumption|]. intros Hn.
  pose proof (Q a b c La Lb Lc) as Q1. pose proof (Q b a c Lb La Lc) as Q2.
  assert (A : area2 c b a = - area2 c a b) by (unfold area2, det2; ring).
  rewrite A in Q2. destruct (edgeIsLeft2 a b c), (edgeIsLeft2 b a c); try reflexivity; exfalso.
  - pose proof (proj1 Q1 eq_refl). pose proof (proj1 Q2 eq_refl). lra.
  - destruct (Rtotal_order (area2 c a b) 0) as [H|[H|H]]; [|contradiction|].
    + assert (false = true) by (apply Q2; lra). discriminate.
    + assert (false = true) by (apply Q1; lra). discriminate.
Qed.
Print Assumptions C47_edge2.

(** C47. Spatial case: the sign of the triple product (a - c) x (b - c) . n. *)
Theorem C47_edge3 : forall a b c n : point, length a = 3%nat -> length b = 3%nat -> length c = 3%nat -> length n = 3%nat ->
  (edgeIsLeft3 (K := numR) a b c n = true <-> 0 < triple (diff a c) (diff b c) n) /\
  (triple (diff a c) (diff b c) n <> 0 -> edgeIsLeft3 (K := numR) b a c n = negb (edgeIsLeft3 (K := numR) a b c n)).
Proof.
  assert (Q : forall a b c n : point, length a = 3%nat -> length b = 3%nat -> length c = 3%nat -> length n = 3%nat ->
    edgeIsLeft3 (K := numR) a b c n = true <-> 0 < triple (diff a c) (diff b c) n).
  { intros a b c n La Lb Lc Ln. destruct (len3 a La) as (a0 & a1 & a2 & ->). destruct (len3 b Lb) as (b0 & b1 & b2 & ->).
    destruct (len3 c Lc) as (c0 & c1 & c2 & ->). destruct (len3 n Ln) as (n0 & n1 & n2 & ->).
    unfold edgeIsLeft3. etransitivity; [apply gtb_iff|]. unfold triple, det3, px, py, pz, co. simpl. unfold co. simpl. split; intros; nr; lra. }
  intros a b c n La Lb Lc Ln. split; [apply Q; assumption|]. intros Hn.
  pose proof (Q a b c n La Lb Lc Ln) as Q1. pose proof (Q b a c n Lb La Lc Ln) as Q2.
  assert (A : triple (diff b c) (diff a c) n = - triple (diff a c) (diff b c) n) by (unfold triple, det3; ring).
  rewrite A in Q2. destruct (edgeIsLeft3 a b c n), (edgeIsLeft3 b a c n); try reflexivity; exfalso.
  - pose proof (proj1 Q1 eq_refl). pose proof (proj1 Q2 eq_refl). lra.
  - destruct (Rtotal_order (triple (diff a c) (diff b c) n) 0) as [H|[H|H]]; [|contradiction|].
    + assert (false = true) by (apply Q2; lra). discriminate.
    + assert (false = true) by (apply Q1; lra). discriminate.
Qed.
Print Assumptions C47_edge3.

(** C47. edgesOrientation: one row per face, one entry per edge of the face. For a face whose first edge (a0 to b0) does
    not degenerate: the entry of an edge from a to b lying in the plane of that edge and the face centre c tells whether
    the edge goes counterclockwise around c seen from outside of the left cell (centre x), that is whether the tetrahedron
    x, c, a, b is positively oriented; the opposite when the face has only a right cell. *)
Theorem C47_table : forall m cc fc, geo_mesh m -> no_empty m -> m_dim m = 3%nat ->
  (forall p, In p cc -> length p = 3%nat) -> (forall p, In p fc -> length p = 3%nat) -> length fc = length (m_faces m) ->
  (forall face, In face (m_faces m) -> exists x l, side_center cc face x l) ->
  exists t, edgesOrientation (K := numR) m cc fc = Ok t /\ length t = length (m_faces m) /\
  forall f face row, nth_error (m_faces m) (N.to_nat f) = Some face -> nth_error t (N.to_nat f) = Some row ->
    length row = length (f_subs face) /\
  forall x (l : bool) e0 es a0 b0 c, side_center cc face x l -> f_subs face = e0 :: es -> edge_points m e0 a0 b0 ->
      nth_error fc (N.to_nat f) = Some c -> vol6 x a0 b0 c <> 0 ->
      forall j e a b o, nth_error (f_subs face) j = Some e -> edge_points m e a b -> nth_error row j = Some o ->
        coplanar [a0; b0; c; a] -> coplanar [a0; b0; c; b] ->
        (o = true <-> if l then 0 < vol6 x c a b else vol6 x c a b < 0).
Proof.
  intros m cc fc G HN D Hcc Hfc Lfc Hside.
  destruct (C44_normals3 m cc fc G HN D Hcc Hfc Lfc Hside) as (ns & En & Ln & Hns).
  destruct (table_ok (fun f => face <- vat (m_faces m) f ;; n <- vidx ns f ;;
      mapM (fun e => ab <- edge_pts (K := numR) m e ;; c <- vidx fc f ;; Ok (edgeIsLeft3 (K := numR) (fst ab) (snd ab) c n)) (f_subs face))
    (fun f row => forall face n c, nth_error (m_faces m) (N.to_nat f) = Some face -> nth_error ns (N.to_nat f) = Some n -> nth_error fc (N.to_nat f) = Some c ->
       Forall2 (fun e o => forall a b, edge_points m e a b -> o = edgeIsLeft3 (K := numR) a b c n) (f_subs face) row)
    (length (m_faces m))) as (t & E & L & H & _).
  { intros f Hf. destruct (vat_lt (m_faces m) f Hf) as [face Hface].
    destruct (nth_error ns (N.to_nat f)) as [n|] eqn:Hn; [|apply nth_error_None in Hn; nr; lia].
    destruct (nth_error fc (N.to_nat f)) as [c|] eqn:Hc; [|apply nth_error_None in Hc; nr; lia].
    pose proof (proj2 (vidx_ok ns f n) Hn) as Hn'. pose proof (proj2 (vidx_ok fc f c) Hc) as Hc'.
    rewrite Hface. cbn [bind]. rewrite Hn'. cbn [bind].
    assert (HH : forall js, (forall e, In e js -> exists a b, edge_points m e a b) -> exists row,
      mapM (fun e => ab <- edge_pts (K := numR) m e ;; c <- vidx fc f ;; Ok (edgeIsLeft3 (K := numR) (fst ab) (snd ab) c n)) js = Ok row /\
  Forall2 (fun e o => forall a b, edge_points m e a b -> o = edgeIsLeft3 (K := numR) a b c n) js row).
    { induction js as [|e js IH]; intros Hjs; [exists []; split; [reflexivity|constructor]|].
      destruct (Hjs e (or_introl eq_refl)) as (a & b & Hab). destruct IH as (row & Er & Hr); [intros; apply Hjs; right; assumption|].
      exists (edgeIsLeft3 (K := numR) a b c n :: row). cbn [mapM]. pose proof (proj1 (ends_edge _ _ _ _) Hab) as Ee. nr. rewrite Er, Ee. cbn [bind].
      nr. rewrite Hc'. cbn [bind fst snd]. split; [reflexivity|].
      constructor; [|assumption]. intros a' b' Hab'. destruct (edge_points_det _ _ _ _ _ _ Hab Hab') as [-> ->]. reflexivity. }
    destruct (HH (f_subs face)) as (row & Er & Hr).
    { intros e He. apply edge_points_total; [assumption|]. apply vat_ok in Hface.
      assert (Sb : subs m 2 f = Ok (f_subs face)).
      { unfold subs. nr. rewrite D. cbn [Nat.sub Nat.eqb]. apply vat_ok in Hface. nr. rewrite Hface. reflexivity. }
      assert (Hk : (1 <= 2 < m_dim m)%nat) by (nr; lia).
      exact (proj1 (proj2 (wf_subs _ (geo_wf _ G) 2%nat f (f_subs face) Hk Sb)) e He). }
    exists row. split; [exact Er|]. intros face' n' c' H1 H2 H3. apply vat_ok in Hface.
    assert (face' = face) by congruence. assert (n' = n) by congruence. assert (c' = c) by congruence. subst. assumption. }
  exists t. split; [|split; [exact L|]].
  - unfold edgesOrientation. refine (eq_trans (f_equal (fun o => bind o _) En) _). exact E.
  - intros f face row Hf Hrow.
    assert (Hfl : (N.to_nat f < length (m_faces m))%nat) by (apply nth_error_Some; congruence).
    destruct (nth_error ns (N.to_nat f)) as [n|] eqn:Hn; [|apply nth_error_None in Hn; nr; lia].
    destruct (nth_error fc (N.to_nat f)) as [c0|] eqn:Hc; [|apply nth_error_None in Hc; nr; lia].
    pose proof (H f row Hrow face n c0 Hf Hn Hc) as HF. split; [symmetry; eapply Forall2_length'; exact HF|].
    intros x l e0 es a0 b0 c Hs He0 Hab0 Hc' HV j e a b o Hj Hab Ho Ca Cb.
    assert (c0 = c) by congruence. subst c0.
    apply Forall2_nth in HF as [_ HF]. rewrite (HF j e o Hj Ho a b Hab).
    destruct (Hns f face x l e0 es a0 b0 c n Hf Hs He0 Hab0 Hc HV Hn) as (Lnn & Hu & _ & _ & Hd & Hp).
    destruct (edge_points_length _ _ _ _ G Hab) as [La Lb]. rewrite D in La, Lb.
    assert (Lc : length c = 3%nat) by (apply Hfc; eapply nth_error_In; exact Hc).
    assert (Lx : length x = 3%nat).
    { destruct (side_center_cell _ _ _ _ Hs) as (i & _ & V1). apply Hcc. apply vat_ok in V1. eapply nth_error_In; eassumption. }
    etransitivity; [apply C47_edge3; assumption|].
    rewrite vol6_triple by assumption.
    assert (Z1 : sprod n (diff a c) = 0) by (rewrite sprod_diff_r by (nr; lia); rewrite (Hp a La Ca); nr; ring).
    assert (Z2 : sprod n (diff b c) = 0) by (rewrite sprod_diff_r by (nr; lia); rewrite (Hp b Lb Cb); nr; ring).
    assert (L1 : length (diff a c) = 3%nat) by (rewrite diff_length; nr; lia).
    assert (L2 : length (diff b c) = 3%nat) by (rewrite diff_length; nr; lia).
    assert (L3 : length (diff c x) = 3%nat) by (rewrite diff_length; nr; lia).
    rewrite (triple_plane (diff a c) (diff b c) (diff c x) n L1 L2 L3 Lnn Hu Z1 Z2).
    rewrite sprod_diff_r by (nr; lia). set (T := triple (diff a c) (diff b c) n) in *. destruct l; split; intros HT.
    + apply Rmult_lt_0_compat; lra.
    + destruct (Rle_or_lt T 0) as [Hle|]; [|assumption]. exfalso.
      assert (T * (sprod n c - sprod n x) <= 0 * (sprod n c - sprod n x)) by (apply Rmult_le_compat_r; lra). lra.
    + assert (0 < T * (sprod n x - sprod n c)) by (apply Rmult_lt_0_compat; lra). lra.
    + destruct (Rle_or_lt T 0) as [Hle|]; [|assumption]. exfalso.
      assert (T * (sprod n x - sprod n c) <= 0 * (sprod n x - sprod n c)) by (apply Rmult_le_compat_r; lra). lra.
Qed.
Print Assumptions C47_table.
Example C47_instance : exists t row, edgesOrientation (K := numR) cubeR cubeCC cubeFC = Ok t /\ nth_error t 5 = Some row /\
  nth_error row 0 = Some true /\ nth_error row 2 = Some false.
Proof.
  destruct cubeR_geo as [G HN]. destruct cubeFC_len as [L1 L2].
  destruct (C47_table cubeR cubeCC cubeFC G HN eq_refl L1 L2 eq_refl) as (t & E & L & H).
  { intros f Hf. exists [/2; /2; /2], true. apply cube_side. assumption. }
  destruct (nth_error t 5) as [row|] eqn:En; [|apply nth_error_None in En; rewrite L in En; simpl in En; lia].
  exists t, row. split; [exact E|]. split; [exact En|].
  assert (Hf : exists face, nth_error (m_faces cubeR) (N.to_nat 5) = Some face /\ f_subs face = [8;9;10;11]%N) by (eexists; split; reflexivity).
  destruct Hf as (face & Hf & Hs). destruct (H 5%N face row Hf En) as (Lr & HH). rewrite Hs in Lr. simpl in Lr.
  assert (Hab : edge_points cubeR 8 [0;0;1] [1;0;1]) by (eexists _, _; splits; reflexivity).
  assert (Hab2 : edge_points cubeR 10 [0;1;1] [1;1;1]) by (eexists _, _; splits; reflexivity).
  assert (HV : vol6 [/2;/2;/2] [0;0;1] [1;0;1] [/2; /2; 1] <> 0) by (unfold vol6, det3, px, py, pz; simpl; lra).
  assert (Cp : forall s t, coplanar [[0;0;1]; [1;0;1]; [/2; /2; 1]; [s; t; 1]]).
  { intros s u. exists [0; 0; 1], 1. split; [reflexivity|]. split; [simpl; lra|]. intros p Hp. simpl in Hp.
    repeat destruct Hp as [<-|Hp]; try (simpl; lra). }
  pose proof (HH _ true _ _ _ _ _ (cube_side face (nth_error_In _ _ Hf)) Hs Hab eq_refl HV) as Q. rewrite Hs in Q.
  destruct row as [|o0 [|o1 [|o2 [|o3 [|]]]]]; try discriminate. simpl. split; f_equal.
  - apply (Q 0%nat 8%N _ _ o0 eq_refl Hab eq_refl); [apply Cp|apply Cp|]. unfold vol6, det3, px, py, pz; simpl; lra.
  - pose proof (Q 2%nat 10%N _ _ o2 eq_refl Hab2 eq_refl (Cp _ _) (Cp _ _)) as Q2. destruct o2; [|reflexivity]. exfalso.
    pose proof (proj1 Q2 eq_refl) as Q3. revert Q3. unfold vol6, det3, px, py, pz; simpl. intros; lra.
Qed.

(** * Distances across faces *)
Lemma bnd_index j : (j < 2 ^ 63)%N -> isBoundaryIndex 64 (2 ^ 63 + j) = true /\ extractBoundaryIndex 64 (2 ^ 63 + j) = j.
Proof.
  intros H.
  assert (E : (2 ^ 63 + j = makeBoundaryIndex 64 j)%N).
  { unfold makeBoundaryIndex. rewrite boundary_pow. change (64 - 1)%N with 63%N.
    rewrite <- N.lxor_lor, N.add_nocarry_lxor; try reflexivity;
      (apply N.bits_inj; intros k; rewrite N.land_spec, N.bits_0, N.pow2_bits_eqb;
       destruct (N.eqb_spec 63 k) as [<-|]; [apply (testbit_lt _ 63); [assumption|lia]|reflexivity]). }
  rewrite E. split; [apply isBoundary_make|].
  destruct (C01_boundary_index_encoding 64 ltac:(lia)) as (_ & Q & _). apply (Q j H).
Qed.
Lemma side_point_inv cc bcc b c i p : side_point cc bcc b c i p ->
  ((i < 2 ^ 63)%N /\ nth_error cc (N.to_nat i) = Some p) \/ (b = false /\ i = INVALID /\ p = c) \/
  (b = true /\ exists j, i = (2 ^ 63 + j)%N /\ (j < 2 ^ 63)%N /\ nth_error bcc (N.to_nat j) = Some p).
Proof. intros H. destruct H; [left; auto|right; left; auto|right; right; eauto 6]. Qed.
Lemma any_side cc bcc c i p : side_point cc bcc true c i p -> any_center (K := numR) cc bcc i = Ok p.
Proof.
  intros H. apply side_point_inv in H as [[Hi Hp]|[[Hb _]|(_ & j & -> & Hj & Hp)]]; try discriminate; unfold any_center.
  - destruct (isBoundaryIndex 64 i) eqn:E.
    + exfalso. destruct (proj1 (C01_boundary_index_encoding 64 ltac:(lia)) i) as [_ Q]; [eapply N.lt_trans; [exact Hi|reflexivity]|]. rewrite Q in E; [discriminate|exact Hi].
    + apply vat_ok. exact Hp.
  - destruct (bnd_index j Hj) as [-> ->]. apply vat_ok. exact Hp.
Qed.
Lemma plain_inv (i : N) : (i < 2 ^ 63)%N -> isInvalidIndex 64 i = false.
Proof. intros H. apply (plain_not_invalid 64 i ltac:(lia) H). Qed.
Lemma inv_inv : isInvalidIndex 64 INVALID = true.
Proof. reflexivity. Qed.

Definition has_bcells (m : Mesh point) : bool := match m_bcells m with [] => false | _ => true end.
Lemma dist_self (p : point) : dist p p = 0.
Proof.
  unfold dist. assert (E : sprod (diff p p) (diff p p) = 0).
  { induction p as [|x p IH]; [reflexivity|]. simpl. rewrite IH. ring. }
  rewrite E. apply sqrt_0.
Qed.
Lemma diff_self (p : point) : diff p p = repeat 0 (length p).
Proof. induction p as [|x p IH]; simpl; [reflexivity|]. rewrite IH. f_equal. ring. Qed.

(** C48. computeCellsDistance: if both sides of every face have a point (see [side_point]), it succeeds and the entry of a
    face is the distance of the points of its sides. *)
Theorem C48_distance : forall m cc fc bcc, length fc = length (m_faces m) ->
  (forall f face c, nth_error (m_faces m) f = Some face -> nth_error fc f = Some c -> exists p q,
     side_point cc bcc (has_bcells m) c (cellLeft (bc (f_conn face))) p /\ side_point cc bcc (has_bcells m) c (cellRight (bc (f_conn face))) q) ->
  exists ds, cellsDistance (K := numR) m cc fc bcc = Ok ds /\ length ds = length (m_faces m) /\
  forall f face c p q d, nth_error (m_faces m) f = Some face -> nth_error fc f = Some c -> nth_error ds f = Some d ->
    side_point cc bcc (has_bcells m) c (cellLeft (bc (f_conn face))) p -> side_point cc bcc (has_bcells m) c (cellRight (bc (f_conn face))) q ->
    d = dist p q.
Proof.
  intros m cc fc bcc Lfc Hs. unfold cellsDistance.
  destruct (table_ok (fun f => face <- vat (m_faces m) f ;; c <- vidx fc f ;;
                 match m_bcells m with
                 | [] => dist_plain (K := numR) cc c (f_conn face)
                 | _ => l <- any_center (K := numR) cc bcc (cellLeft (bc (f_conn face))) ;;
                        r <- any_center (K := numR) cc bcc (cellRight (bc (f_conn face))) ;;
                        Ok (normEuclid (K := numR) (vsub (K := numR) l r))
                 end)
     (fun f d => forall face c p q, nth_error (m_faces m) (N.to_nat f) = Some face -> nth_error fc (N.to_nat f) = Some c ->
        side_point cc bcc (has_bcells m) c (cellLeft (bc (f_conn face))) p -> side_point cc bcc (has_bcells m) c (cellRight (bc (f_conn face))) q ->
        d = dist p q) (length (m_faces m))) as (ds & E & L & H & _).
  { intros f Hf. destruct (vat_lt (m_faces m) f Hf) as [face Hface]. pose proof (proj1 (vat_ok _ _ _) Hface) as Hn.
    destruct (nth_error fc (N.to_nat f)) as [c|] eqn:Hc; [|apply nth_error_None in Hc; nr; lia].
    pose proof (proj2 (vidx_ok fc f c) Hc) as Hc'. rewrite Hface. cbn [bind]. nr. rewrite Hc'. cbn [bind].
    destruct (Hs _ face c Hn Hc) as (p & q & Hp & Hq).
    assert (Q : forall b, (match m_bcells m with
                 | [] => dist_plain (K := numR) cc c (f_conn face)
                 | _ => l <- any_center (K := numR) cc bcc (cellLeft (bc (f_conn face))) ;;
                        r <- any_center (K := numR) cc bcc (cellRight (bc (f_conn face))) ;;
                        Ok (normEuclid (K := numR) (vsub (K := numR) l r))
                 end = b) -> forall p q, side_point cc bcc (has_bcells m) c (cellLeft (bc (f_conn face))) p ->
                   side_point cc bcc (has_bcells m) c (cellRight (bc (f_conn face))) q -> b = Ok (dist p q)).
    { intros b <- p' q' Hp' Hq'. unfold has_bcells in *. destruct (m_bcells m) as [|b0 bs].
      - unfold dist_plain.
        apply side_point_inv in Hp' as [[Hi1 Hp1]|[(_ & -> & ->)|[Hb _]]]; [..|discriminate];
          apply side_point_inv in Hq' as [[Hi2 Hp2]|[(_ & -> & ->)|[Hb _]]]; try discriminate.
        + rewrite !plain_inv by assumption. cbn [negb andb]. apply vat_ok in Hp1, Hp2. nr. rewrite Hp1, Hp2. cbn [bind].
          f_equal. apply norm_dist.
        + rewrite (plain_inv _ Hi1), inv_inv. cbn [negb andb]. apply vat_ok in Hp1. nr. rewrite Hp1. cbn [bind]. f_equal. apply norm_dist.
        + rewrite (plain_inv _ Hi2), inv_inv. cbn [negb andb]. apply vat_ok in Hp2. nr. rewrite Hp2. cbn [bind]. f_equal.
          etransitivity; [apply norm_dist|]. apply dist_sym.
        + rewrite inv_inv. cbn [negb andb]. f_equal. symmetry. apply dist_self.
      - apply any_side in Hp', Hq'. nr. rewrite Hp', Hq'. cbn [bind]. f_equal. apply norm_dist. }
    exists (dist p q). split; [apply (Q _ eq_refl p q Hp Hq)|].
    intros face' c' p' q' H1 H2 H3 H4. assert (face' = face) by congruence. assert (c' = c) by congruence. subst.
    pose proof (Q _ eq_refl p q Hp Hq) as E1. pose proof (Q _ eq_refl p' q' H3 H4) as E2.
    pose proof (eq_trans (eq_sym E1) E2) as E3. injection E3. auto. }
  exists ds. split; [exact E|]. split; [exact L|]. intros f face c p q d Hf Hc Hd Hp Hq.
  rewrite <- (Nat2N.id f) in Hf, Hc, Hd. apply (H _ d Hd face c p q Hf Hc Hp Hq).
Qed.
Print Assumptions C48_distance.

(** C48. computeCellsCenterDifference: the point of the right side minus the point of the left side, with one exception:
    if the mesh has no boundary cells and the left side is the missing one, the opposite of that. *)
Theorem C48_difference : forall m cc fc bcc, length fc = length (m_faces m) -> (forall c, In c fc -> length c = m_dim m) ->
  (forall f face c, nth_error (m_faces m) f = Some face -> nth_error fc f = Some c -> exists p q,
     side_point cc bcc (has_bcells m) c (cellLeft (bc (f_conn face))) p /\ side_point cc bcc (has_bcells m) c (cellRight (bc (f_conn face))) q) ->
  exists ds, centerDifference (K := numR) (m_dim m) m cc fc bcc = Ok ds /\ length ds = length (m_faces m) /\
  forall f face c p q d, nth_error (m_faces m) f = Some face -> nth_error fc f = Some c -> nth_error ds f = Some d ->
    side_point cc bcc (has_bcells m) c (cellLeft (bc (f_conn face))) p -> side_point cc bcc (has_bcells m) c (cellRight (bc (f_conn face))) q ->
    d = (if negb (has_bcells m) && (cellLeft (bc (f_conn face)) =? INVALID)%N then diff p q else diff q p).
Proof.
  intros m cc fc bcc Lfc Ldim Hs. unfold centerDifference.
  destruct (table_ok (fun f => face <- vat (m_faces m) f ;; c <- vidx fc f ;;
                 match m_bcells m with
                 | [] => diff_plain (K := numR) (m_dim m) cc c (f_conn face)
                 | _ => l <- any_center (K := numR) cc bcc (cellLeft (bc (f_conn face))) ;;
                        r <- any_center (K := numR) cc bcc (cellRight (bc (f_conn face))) ;;
                        Ok (vsub (K := numR) r l)
                 end)
     (fun f d => forall face c p q, nth_error (m_faces m) (N.to_nat f) = Some face -> nth_error fc (N.to_nat f) = Some c ->
        side_point cc bcc (has_bcells m) c (cellLeft (bc (f_conn face))) p -> side_point cc bcc (has_bcells m) c (cellRight (bc (f_conn face))) q ->
        d = (if negb (has_bcells m) && (cellLeft (bc (f_conn face)) =? INVALID)%N then diff p q else diff q p)) (length (m_faces m))) as (ds & E & L & H & _).
  { intros f Hf. destruct (vat_lt (m_faces m) f Hf) as [face Hface]. pose proof (proj1 (vat_ok _ _ _) Hface) as Hn.
    destruct (nth_error fc (N.to_nat f)) as [c|] eqn:Hc; [|apply nth_error_None in Hc; nr; lia].
    pose proof (proj2 (vidx_ok fc f c) Hc) as Hc'. rewrite Hface. cbn [bind]. nr. rewrite Hc'. cbn [bind].
    destruct (Hs _ face c Hn Hc) as (p & q & Hp & Hq).
    assert (Q : forall b, (match m_bcells m with
                 | [] => diff_plain (K := numR) (m_dim m) cc c (f_conn face)
                 | _ => l <- any_center (K := numR) cc bcc (cellLeft (bc (f_conn face))) ;;
                        r <- any_center (K := numR) cc bcc (cellRight (bc (f_conn face))) ;;
                        Ok (vsub (K := numR) r l)
                 end = b) -> forall p q, side_point cc bcc (has_bcells m) c (cellLeft (bc (f_conn face))) p ->
                   side_point cc bcc (has_bcells m) c (cellRight (bc (f_conn face))) q ->
                   b = Ok (if negb (has_bcells m) && (cellLeft (bc (f_conn face)) =? INVALID)%N then diff p q else diff q p)).
    { intros b <- p' q' Hp' Hq'. unfold has_bcells in *. destruct (m_bcells m) as [|b0 bs].
      - unfold diff_plain.
        assert (NE : forall i, (i < 2 ^ 63)%N -> (i =? INVALID)%N = false).
        { intros i Hi. apply N.eqb_neq. intros ->. revert Hi. apply N.le_ngt. discriminate. }
        apply side_point_inv in Hp' as [[Hi1 Hp1]|[(_ & -> & ->)|[Hb _]]]; [..|discriminate];
          apply side_point_inv in Hq' as [[Hi2 Hp2]|[(_ & -> & ->)|[Hb _]]]; try discriminate.
        + rewrite !plain_inv, (NE _ Hi1) by assumption. cbn [negb andb]. apply vat_ok in Hp1, Hp2. nr. rewrite Hp1, Hp2. cbn [bind].
          f_equal. apply vsub_diff.
        + rewrite (plain_inv _ Hi1), inv_inv, (NE _ Hi1). cbn [negb andb]. apply vat_ok in Hp1. nr. rewrite Hp1. cbn [bind]. f_equal. apply vsub_diff.
        + rewrite (plain_inv _ Hi2), inv_inv, N.eqb_refl. cbn [negb andb]. apply vat_ok in Hp2. nr. rewrite Hp2. cbn [bind]. f_equal.
          apply vsub_diff.
        + rewrite inv_inv, N.eqb_refl. cbn [negb andb]. f_equal. etransitivity; [|symmetry; apply diff_self].
          f_equal. symmetry. apply Ldim. eapply nth_error_In. exact Hc.
      - apply any_side in Hp', Hq'. nr. rewrite Hp', Hq'. cbn [bind]. f_equal. apply vsub_diff. }
    eexists. split; [apply (Q _ eq_refl p q Hp Hq)|].
    intros face' c' p' q' H1 H2 H3 H4. assert (face' = face) by congruence. assert (c' = c) by congruence. subst.
    pose proof (Q _ eq_refl p q Hp Hq) as E1. pose proof (Q _ eq_refl p' q' H3 H4) as E2.
    pose proof (eq_trans (eq_sym E1) E2) as E3. injection E3. auto. }
  exists ds. split; [exact E|]. split; [exact L|]. intros f face c p q d Hf Hc Hd Hp Hq.
  rewrite <- (Nat2N.id f) in Hf, Hc, Hd. apply (H _ d Hd face c p q Hf Hc Hp Hq).
Qed.
Print Assumptions C48_difference.

Lemma mapM_throw {A B} (f : A -> outcome B) l : (forall x, In x l -> f x = Throw \/ exists b, f x = Ok b) ->
  (exists x, In x l /\ f x = Throw) -> mapM f l = Throw.
Proof.
  induction l as [|x l IH]; intros H (y & Hy & Ey); [destruct Hy|]. simpl.
  destruct (H x (or_introl eq_refl)) as [->|(b & E)]; [reflexivity|]. rewrite E. simpl.
  rewrite IH; [reflexivity|intros; apply H; right; assumption|].
  destruct Hy as [<-|Hy]; [congruence|eauto].
Qed.
Lemma any_center_cases cc bcc i : any_center (K := numR) cc bcc i = Throw \/ exists p, any_center (K := numR) cc bcc i = Ok p.
Proof.
  unfold any_center, vat. destruct (isBoundaryIndex 64 i);
    match goal with |- context [if ?b then _ else _] => destruct b end; auto; destruct (nth_error _ _); eauto.
Qed.

(** C48. Once a mesh has boundary cells (fewer than 2^63), a face with a missing side makes both functions throw. *)
Theorem C48_missing_side_throws : forall m cc fc bcc face, length fc = length (m_faces m) -> m_bcells m <> [] ->
  (N.of_nat (length bcc) < 2 ^ 63)%N -> In face (m_faces m) ->
  cellLeft (bc (f_conn face)) = INVALID \/ cellRight (bc (f_conn face)) = INVALID ->
  cellsDistance (K := numR) m cc fc bcc = Throw /\ centerDifference (K := numR) (m_dim m) m cc fc bcc = Throw.
Proof.
  intros m cc fc bcc face Lfc Hb Lb Hin Hi.
  assert (T : any_center (K := numR) cc bcc INVALID = Throw).
  { unfold any_center. change (isBoundaryIndex 64 INVALID) with true. cbv iota.
    change (extractBoundaryIndex 64 INVALID) with 9223372036854775807%N. unfold vat.
    destruct (N.ltb_spec 9223372036854775807 (N.of_nat (length bcc))) as [Hlt|]; [|nr; destruct (N.ltb_spec 9223372036854775807 (N.of_nat (length bcc))); [|reflexivity]].
    - exfalso. revert Lb. apply N.le_ngt. apply N.le_succ_l in Hlt. exact Hlt.
    - exfalso. apply N.lt_nge in H0. auto. }
  apply In_nth_error in Hin as (f & Hf).
  assert (Hfl : (f < length (m_faces m))%nat) by (apply nth_error_Some; congruence).
  assert (Hc : exists c, nth_error fc f = Some c).
  { destruct (nth_error fc f) eqn:E; [eauto|]. apply nth_error_None in E. nr; lia. }
  destruct Hc as (c & Hc).
  assert (Gen : forall B (h : list R -> list R -> outcome B), (forall x y, exists b, h x y = Ok b) ->
    mapM (fun f => face <- vat (m_faces m) f ;; c <- vidx fc f ;;
       l <- any_center (K := numR) cc bcc (cellLeft (bc (f_conn face))) ;;
       r <- any_center (K := numR) cc bcc (cellRight (bc (f_conn face))) ;; h l r) (seqN (length (m_faces m))) = Throw).
  { intros B h Hh. apply mapM_throw.
    - intros x Hx. apply in_seqN in Hx. destruct (vat_lt (m_faces m) x Hx) as [face' Hface].
      destruct (nth_error fc (N.to_nat x)) as [c'|] eqn:Hc'; [|apply nth_error_None in Hc'; nr; lia].
      apply (vidx_ok fc x c') in Hc'. nr. rewrite Hface. cbn [bind]. rewrite Hc'. cbn [bind].
      destruct (any_center_cases cc bcc (cellLeft (bc (f_conn face')))) as [El|(l & El)]; nr; rewrite El; cbn [bind]; [auto|].
      destruct (any_center_cases cc bcc (cellRight (bc (f_conn face')))) as [Er|(r & Er)]; nr; rewrite Er; cbn [bind]; auto.
    - exists (N.of_nat f). split; [apply in_seqN; lia|].
      assert (Hv : vat (m_faces m) (N.of_nat f) = Ok face) by (apply vat_ok; rewrite Nat2N.id; assumption).
      assert (Hv' : vidx fc (N.of_nat f) = Ok c) by (apply vidx_ok; rewrite Nat2N.id; assumption).
      nr. rewrite Hv. cbn [bind]. rewrite Hv'. cbn [bind]. destruct Hi as [->| ->].
      + nr. rewrite T. reflexivity.
      + nr. rewrite T. destruct (any_center_cases cc bcc (cellLeft (bc (f_conn face)))) as [El|(l & El)]; nr; rewrite El; reflexivity. }
  unfold cellsDistance, centerDifference. destruct (m_bcells m) as [|b0 bs]; [congruence|]. split.
  - apply (Gen R (fun l r => Ok (normEuclid (K := numR) (vsub (K := numR) l r)))). eauto.
  - apply (Gen (list R) (fun l r => Ok (vsub (K := numR) r l))). eauto.
Qed.
Print Assumptions C48_missing_side_throws.

(** Non-vacuity: two triangles; the boundary edges have a missing right or left side. *)
Definition triCC : list point := [[1/3; 1/3]; [2/3; 2/3]].
Definition triFC : list point := [[1/2; 0]; [1/2; 1/2]; [0; 1/2]; [1/2; 1]; [1; 1/2]].
Example C48_instance :
  length triFC = length (m_faces trianglesR) /\ (forall c, In c triFC -> length c = m_dim trianglesR) /\
  (forall f face c, nth_error (m_faces trianglesR) f = Some face -> nth_error triFC f = Some c -> exists p q,
     side_point triCC [] (has_bcells trianglesR) c (cellLeft (bc (f_conn face))) p /\ side_point triCC [] (has_bcells trianglesR) c (cellRight (bc (f_conn face))) q).
Proof.
  split; [reflexivity|]. split; [intros c H; simpl in H; repeat destruct H as [<-|H]; try reflexivity; destruct H|].
  assert (Q : forall c i, (i <? 2)%N || (i =? INVALID)%N = true -> exists p, side_point triCC [] false c i p).
  { intros c i H. apply orb_true_iff in H as [H|H].
    - apply N.ltb_lt in H. destruct i as [|[]]; try lia; eexists; apply sp_cell; reflexivity.
    - apply N.eqb_eq in H. rewrite H. eexists. apply sp_face. reflexivity. }
  assert (Hall : forallb (fun f => ((cellLeft (bc (f_conn f)) <? 2)%N || (cellLeft (bc (f_conn f)) =? INVALID)%N)
      && ((cellRight (bc (f_conn f)) <? 2)%N || (cellRight (bc (f_conn f)) =? INVALID)%N)) (m_faces trianglesR) = true) by (vm_compute; reflexivity).
  intros f face c Hf Hc. rewrite forallb_forall in Hall. apply nth_error_In in Hf. apply Hall in Hf.
  apply andb_true_iff in Hf as [H1 H2]. apply (Q c) in H1 as (p & Hp). apply (Q c) in H2 as (q & Hq). exists p, q. split; assumption.
Qed.

(** C78: spatial meshes of convex polyhedra: centres, areas, normals and volumes. Exact real arithmetic. *)
From Coq Require Import Reals Lra Permutation.
From Verif Require Import P_Base M_Conn M_Index M_Mesh M_Apply S_Mesh P_Apply M_Vec S_Vec P_Vec P_GS3 M_Geom S_Geom P_Geom P_Centers T_Centers P_Normals S_Polygon P_Polygon
  P_Volume S_Flux P_Flux T_Flux T_Measure2 T_Normals T_Volume T_Gauss2 T_Gauss3 M_Object T_Object S_Convex P_Convex P_Bnd P_Convex3 Ex_Mesh Ex_Geom.
Local Open Scope R_scope.

(** Centres that lie in the interior of their faces and cells. *)
Definition centers_inside (m : Mesh point) poly (cc fc : list point) : Prop :=
  length cc = length (m_cells m) /\ (forall p, In p cc -> length p = 3%nat) /\
  length fc = length (m_faces m) /\ (forall p, In p fc -> length p = 3%nat) /\
  forall i fs f x c, ring m i fs -> In f fs -> nth_error cc (N.to_nat i) = Some x -> nth_error fc (N.to_nat f) = Some c ->
    exists n k, length n = 3%nat /\ sprod n n <> 0 /\ (forall v, In v (poly i f) -> sprod n v = k) /\ sprod n c = k /\ sprod n x < k /\
      (forall g v, In g fs -> In v (poly i g) -> sprod n v <= k) /\
      forall e, In e (cycle_edges (poly i f)) -> 0 < vol6 x c (fst e) (snd e).

Lemma is_cell_ring (m : Mesh point) i : geo_mesh m -> is_cell m i = true -> exists fs, ring m i fs.
Proof. intros G H. apply (wf_ring _ (geo_wf _ G)). apply N.ltb_lt. exact H. Qed.

Section Core.
Context (m : Mesh point) (poly : N -> N -> list point) (cc fc : list point).
Hypotheses (X : convex_mesh3 m poly) (I : centers_inside m poly cc fc).

(** The edges of a face are sides of its polygon, from either cell. *)
Lemma face_edges i fs f face e a b : ring m i fs -> In f fs -> nth_error (m_faces m) (N.to_nat f) = Some face -> In e (f_subs face) -> edge_points m e a b ->
  In (a, b) (cycle_edges (poly i f)) \/ In (b, a) (cycle_edges (poly i f)).
Proof.
  intros HR Hf Hface He Hab. destruct (cx3_cell _ _ X i fs HR) as [_ H]. destruct (H f face Hf Hface) as (es & HF & HT).
  destruct (Forall2_In_l _ _ _ _ HF He) as (ab & Hin & Q). destruct (edge_points_det _ _ _ _ _ _ Hab Q) as [-> ->].
  destruct ab as [a' b']. cbn [fst snd] in *. exact (traces_out _ _ _ HT Hin).
Qed.
Lemma poly_len i fs f v : ring m i fs -> In f fs -> In v (poly i f) -> length v = 3%nat.
Proof.
  intros HR Hf Hv. destruct (ring_sides m i fs f HR Hf) as (face & Hface & _).
  destruct (cx3_cell _ _ X i fs HR) as [_ H]. destruct (H f face Hf Hface) as (es & HF & HT).
  apply cycle_start in Hv as (e & He & <-). destruct HT as (ds' & HP & HD). apply (Permutation_in _ HP) in He.
  destruct (Forall2_In_r _ _ _ _ HD He) as (d & Hd & Hde). destruct (Forall2_In_r _ _ _ _ HF Hd) as (j & _ & Hj).
  destruct (edge_points_length _ _ _ _ (cx3_geo _ _ X) Hj) as [L1 L2]. rewrite (cx3_dim _ _ X) in L1, L2.
  destruct Hde as [-> | ->]; [exact L1|exact L2].
Qed.
Lemma cell_center i : is_cell m i = true -> exists x, nth_error cc (N.to_nat i) = Some x /\ length x = 3%nat.
Proof.
  intros H. destruct I as (L & LX & _). apply N.ltb_lt in H. destruct (nth_error cc (N.to_nat i)) as [x|] eqn:E; [|apply nth_error_None in E; nr; lia].
  exists x. split; [reflexivity|]. apply LX. eapply nth_error_In. exact E.
Qed.
Lemma center_cell i x : nth_error cc (N.to_nat i) = Some x -> is_cell m i = true.
Proof.
  intros E. destruct I as (L & _). unfold is_cell. apply N.ltb_lt. assert (N.to_nat i < length cc)%nat by (apply nth_error_Some; congruence). nr. lia.
Qed.
Lemma side_ring f face i : nth_error (m_faces m) (N.to_nat f) = Some face -> is_cell m i = true ->
  cellLeft (bc (f_conn face)) = i \/ cellRight (bc (f_conn face)) = i -> exists fs, ring m i fs /\ In f fs.
Proof.
  intros Hf Hi Hs. destruct (is_cell_ring m i (cx3_geo _ _ X) Hi) as (fs & HR). exists fs. split; [exact HR|].
  exact (cx3_match _ _ X i fs f face HR Hf Hs).
Qed.
Lemma vol6_rot x a b c : vol6 x a b c = vol6 x c a b.
Proof. unfold vol6, det3. ring. Qed.
Lemma vol6_flip x c a b : vol6 x c b a = - vol6 x c a b.
Proof. unfold vol6, det3. ring. Qed.
Lemma convex_regular : regular3 m cc fc.
Proof.
  destruct I as (L1 & L2 & L3 & L4 & HI). constructor; try apply X; auto.
  - intros face Hin. destruct (cx3_side _ _ X face Hin) as [Hl|[Hb Hr]].
    + destruct (cell_center _ Hl) as (x & Hx & _). exists x, true. simpl. split; [|exact Hx].
      unfold is_cell in Hl. apply N.ltb_lt in Hl. pose proof (cx3_size _ _ X) as HS. nr. lia.
    + destruct (cell_center _ Hr) as (x & Hx & _). exists x, false. simpl. split; [exact Hb|]. split; [|exact Hx].
      unfold is_cell in Hr. apply N.ltb_lt in Hr. nr. lia.
  - intros f face x l e0 es a b c Hf Hx Hs Hab Hc.
    assert (Q : exists i fs, ring m i fs /\ In f fs /\ nth_error cc (N.to_nat i) = Some x).
    { destruct l; simpl in Hx.
      - destruct Hx as [_ Hx]. destruct (side_ring f face _ Hf (center_cell _ _ Hx) (or_introl eq_refl)) as (fs & HR & Hin). eauto.
      - destruct Hx as (_ & _ & Hx). destruct (side_ring f face _ Hf (center_cell _ _ Hx) (or_intror eq_refl)) as (fs & HR & Hin). eauto. }
    destruct Q as (i & fs & HR & Hin & Hxi). destruct (HI i fs f x c HR Hin Hxi Hc) as (n & k & _ & _ & _ & _ & _ & _ & HV).
    rewrite (vol6_rot x). destruct (face_edges i fs f face e0 a b HR Hin Hf) as [He|He]; [rewrite Hs; left; reflexivity|assumption| |];
      specialize (HV _ He); cbn [fst snd] in HV; [lra|]. rewrite vol6_flip in HV. lra.
Qed.
Lemma convex_apart : centers_apart m cc fc.
Proof.
  destruct I as (L1 & L2 & L3 & L4 & HI). intros f face e0 es a b c xl xr Hf Hs Hab Hc Hl Hr.
  destruct (side_ring f face _ Hf (center_cell _ _ Hl) (or_introl eq_refl)) as (fl & HRl & Hinl).
  destruct (side_ring f face _ Hf (center_cell _ _ Hr) (or_intror eq_refl)) as (fr & HRr & Hinr).
  destruct (HI _ _ _ _ _ HRl Hinl Hl Hc) as (_ & _ & _ & _ & _ & _ & _ & _ & Vl).
  destruct (HI _ _ _ _ _ HRr Hinr Hr Hc) as (_ & _ & _ & _ & _ & _ & _ & _ & Vr).
  pose proof (cx3_inner _ _ X f face Hf (center_cell _ _ Hl) (center_cell _ _ Hr)) as HO.
  rewrite (vol6_rot xl), (vol6_rot xr). destruct (face_edges _ fl f face e0 a b HRl Hinl Hf) as [He|He]; [rewrite Hs; left; reflexivity|assumption| |];
    pose proof (Vl _ He) as A; pose proof (Vr _ (HO _ He)) as B; cbn [fst snd rev_edge] in A, B; (rewrite (vol6_flip xl c a b) in A || rewrite (vol6_flip xr c a b) in B); nra.
Qed.
Lemma convex_face_polys i fs x : ring m i fs -> nth_error cc (N.to_nat i) = Some x -> exists ps, Forall2 (face_poly m fc) fs ps /\ map snd ps = map (poly i) fs /\
  forall p e, In p ps -> In e (cycle_edges (snd p)) -> 0 < vol6 x (fst p) (fst e) (snd e).
Proof.
  intros HR Hx. destruct I as (L1 & L2 & L3 & L4 & HI).
  assert (Q : forall f, In f fs -> exists c, nth_error fc (N.to_nat f) = Some c).
  { intros f Hf. pose proof (ring_lt m i fs f HR Hf) as Hlt. destruct (nth_error fc (N.to_nat f)) as [c|] eqn:E; [eauto|apply nth_error_None in E; nr; lia]. }
  assert (R : forall gs, incl gs fs -> exists ps, Forall2 (face_poly m fc) gs ps /\ map snd ps = map (poly i) gs /\
     forall p e, In p ps -> In e (cycle_edges (snd p)) -> 0 < vol6 x (fst p) (fst e) (snd e)).
  { induction gs as [|f gs IH]; intros Hinc; [exists []; splits; [constructor|reflexivity|intros p e []]|].
    destruct IH as (ps & HF & HM & HV); [intros g Hg; apply Hinc; right; assumption|].
    assert (Hf : In f fs) by (apply Hinc; left; reflexivity). destruct (Q f Hf) as (c & Hc).
    destruct (ring_sides m i fs f HR Hf) as (face & Hface & _).
    destruct (HI i fs f x c HR Hf Hx Hc) as (n & k & Ln & Hn & Hk & Hck & _ & _ & HVf).
    exists ((c, poly i f) :: ps). splits.
    - constructor; [|assumption]. split; [exact Hc|]. split.
      + exists n, k. splits; auto. intros p [<-|Hp]; [exact Hck|]. apply Hk. exact Hp.
      + destruct (cx3_cell _ _ X i fs HR) as [_ H]. destruct (H f face Hf Hface) as (es & HF' & HT). exists face, es. auto.
    - cbn [map snd]. rewrite HM. reflexivity.
    - intros p e [<-|Hp] He; [apply HVf; exact He|]. eapply HV; eassumption. }
  apply R. apply incl_refl.
Qed.
Lemma convex_star i : (i < N.of_nat (length (m_cells m)))%N -> star_cell3 m cc fc i.
Proof.
  intros Hi. assert (Hc : is_cell m i = true) by (apply N.ltb_lt; exact Hi). destruct (cell_center i Hc) as (x & Hx & _).
  destruct (is_cell_ring m i (cx3_geo _ _ X) Hc) as (fs & HR). destruct (convex_face_polys i fs x HR Hx) as (ps & HF & HM & HV).
  exists x, fs, ps. splits; auto.
  - rewrite HM. apply (cx3_cell _ _ X i fs HR).
  - left. intros p e Hp He. apply Rlt_le. eapply HV; eassumption.
Qed.
End Core.

(** The results for interior centres. *)
Lemma convex3_core (m : Mesh point) poly cc fc : convex_mesh3 m poly -> centers_inside m poly cc fc ->
  exists ls Fs Vs ns, computeMeasures3 (K := numR) m cc fc = Ok (ls, Fs, Vs) /\ computeNormals3 (K := numR) m cc fc = Ok ns /\
    length Fs = length (m_faces m) /\ length ns = length (m_faces m) /\ length Vs = length (m_cells m) /\
    (forall e a b, edge_points m e a b -> nth_error ls (N.to_nat e) = Some (dist a b)) /\
    (forall i fs, ring m i fs -> nth_error Vs (N.to_nat i) = Some (poly_volume (map (poly i) fs)) /\ 0 < poly_volume (map (poly i) fs)) /\
    (forall i fs f, ring m i fs -> In f fs -> exists n F, nth_error ns (N.to_nat f) = Some n /\ nth_error Fs (N.to_nat f) = Some F /\
       let s := side_sign m f i in (s = 1 \/ s = -1) /\ length n = 3%nat /\ sprod n n = 1 /\
       2 * F = Rsum (map (fun e => triple (fst e) (snd e) n) (cycle_edges (poly i f))) * s /\ 0 < F /\
       forall v, In v (poly i f) -> forall g w, In g fs -> In w (poly i g) -> s * sprod n w <= s * sprod n v) /\
    3 * Rsum Vs = Rsum (map (fun f => boundary_sign m f * (nth (N.to_nat f) Fs 0 * sprod (nth (N.to_nat f) ns []) (nth (N.to_nat f) fc [])))
                          (seqN (length (m_faces m)))).
Proof.
  intros X I. pose proof (convex_regular m poly cc fc X I) as RG. pose proof (convex_apart m poly cc fc X I) as HA.
  pose proof (convex_star m poly cc fc X I) as HS.
  destruct (C75_total m cc fc RG) as (ls & Fs & Vs & ns & EM & EN & LF & Ln & LV). exists ls, Fs, Vs, ns.
  pose proof RG as [G HN D [L1 Lcc] [L2 Lfc] Hne Hside Hpl].
  destruct (C49_measures3 m cc fc G HN D Lcc Lfc L1 L2 Hne (regular_tri m cc fc RG)) as (ls' & Fs' & Vs' & EM' & Lls & _ & _ & Hls & HFs & _).
  pose proof (eq_trans (eq_sym EM) EM') as Q. injection Q as <- <- <-. clear EM'.
  destruct (C44_normals3 m cc fc G HN D Lcc Lfc L2 Hside) as (ns' & EN' & _ & Hn). pose proof (eq_trans (eq_sym EN) EN') as Q. injection Q as <-. clear EN'.
  assert (Cen : forall i fs, ring m i fs -> exists x, nth_error cc (N.to_nat i) = Some x /\ length x = 3%nat).
  { intros i fs (f0 & r & _ & Hc & _). apply (cell_center m poly cc fc I). unfold is_cell. apply N.ltb_lt.
    assert (N.to_nat i < length (m_cells m))%nat by (apply nth_error_Some; congruence). lia. }
  splits; auto.
  - intros e a b Hab. destruct (nth_error ls (N.to_nat e)) as [l|] eqn:El; [f_equal; exact (Hls e a b l Hab El)|].
    exfalso. apply nth_error_None in El. destruct Hab as (p & q & Hs & _). apply subs_lt in Hs; [|nr; lia]. nr. lia.
  - intros i fs HR. destruct (Cen i fs HR) as (x & Hx & Lx). destruct (convex_face_polys m poly cc fc X I i fs x HR Hx) as (ps & HF & HM & HV).
    destruct (cx3_cell _ _ X i fs HR) as [[HC HSol] _].
    assert (Hi : (N.to_nat i < length cc)%nat) by (apply nth_error_Some; congruence).
    destruct (nth_error Vs (N.to_nat i)) as [V|] eqn:EV; [|apply nth_error_None in EV; nr; lia].
    destruct (C49_polyhedron m cc fc G HN D Lcc Lfc L1 L2 Hne (regular_tri m cc fc RG) ls Fs Vs EM i x fs ps V Hx HR HF) as [_ E]; [rewrite HM; exact HC|exact EV|].
    rewrite HM in E.
    assert (HPos : 0 < poly_volume (map (poly i) fs)).
    { pose proof (surface_sum x ps) as SS. rewrite HM in SS. specialize (SS HC).
      assert (H6 : 0 < 6 * poly_volume (map (poly i) fs)); [|lra]. rewrite <- SS.
      - destruct HR as (f0 & r & Efs & HR). apply Rsum_pos.
        + intros p Hp. apply Rsum_nonneg. intros e He. apply Rlt_le. eapply HV; eassumption.
        + destruct ps as [|p ps]; [exfalso; rewrite Efs in HM; discriminate|]. exists p. split; [left; reflexivity|].
          apply Rsum_pos; [intros e He; apply Rlt_le; eapply HV; [left; reflexivity|assumption]|].
          assert (Hp : snd p <> []) by (apply (HSol (snd p)); rewrite <- HM; left; reflexivity).
          destruct (cycle_edges (snd p)) as [|e es] eqn:Ec.
          * exfalso. apply (f_equal (@length _)) in Ec. rewrite cycle_length in Ec. destruct (snd p); [congruence|discriminate].
          * exists e. split; [left; reflexivity|]. eapply HV; [left; reflexivity|]. rewrite Ec. left. reflexivity.
      - intros p Hp. destruct (Forall2_In_r _ _ _ _ HF Hp) as (f & Hf & HPf). pose proof HPf as (Hc & Hcop & _). splits; auto.
        + apply Lfc. eapply nth_error_In. exact Hc.
        + apply (face_poly_len m fc f p G D HPf). }
    split; [|exact HPos]. f_equal. rewrite E; [apply Rabs_right; lra|]. left. intros p e Hp He. apply Rlt_le. eapply HV; eassumption.
  - intros i fs f HR Hf. destruct (Cen i fs HR) as (x & Hx & Lx). destruct (ring_sides m i fs f HR Hf) as (face & Hface & _).
    assert (Hlt : (N.to_nat f < length (m_faces m))%nat) by (apply nth_error_Some; congruence).
    destruct (nth_error ns (N.to_nat f)) as [n|] eqn:En; [|apply nth_error_None in En; nr; lia].
    destruct (nth_error Fs (N.to_nat f)) as [F|] eqn:EF; [|apply nth_error_None in EF; nr; lia].
    destruct (nth_error fc (N.to_nat f)) as [c|] eqn:Ec; [|apply nth_error_None in Ec; nr; lia].
    exists n, F. split; [reflexivity|]. split; [reflexivity|]. cbv zeta.
    assert (Lc : length c = 3%nat) by (apply Lfc; eapply nth_error_In; exact Ec).
    pose proof I as (_ & _ & _ & _ & HI). destruct (HI i fs f x c HR Hf Hx Ec) as (n0 & k & Ln0 & Hn0 & Hk & Hck & Hxk & Hall & HV).
    pose proof (fun v => poly_len m poly X i fs f v HR Hf) as Lv.
    pose proof (C75_left_to_right m cc fc ns RG HA (cx3_size _ _ X) EN i x fs f Hx HR Hf) as HLR.
    assert (Wn : nth (N.to_nat f) ns [] = n) by (apply nth_error_nth; exact En).
    assert (Wc : nth (N.to_nat f) fc [] = c) by (apply nth_error_nth; exact Ec). rewrite Wn, Wc in HLR. clear Wn Wc.
    destruct (f_subs face) as [|e0 es0] eqn:Hes.
    { exfalso. apply (HN 2%nat f []); [lia| |reflexivity].
      unfold subs. rewrite D. simpl. apply vat_ok in Hface. rewrite Hface. simpl. rewrite Hes. reflexivity. }
    destruct (Hside face (nth_error_In _ _ Hface)) as (y & l & Hy).
    destruct (edge_points_total m e0 G) as (a & b & Hab).
    { apply (face_subs_lt m f face G D Hface). rewrite Hes. left. reflexivity. }
    pose proof (Hpl f face y l e0 es0 a b c Hface Hy Hes Hab Ec) as HVy.
    destruct (Hn f face y l e0 es0 a b c n Hface Hy Hes Hab Ec HVy En) as (Lnn & Hu & Ha & Hb & _ & Hcp).
    destruct (cx3_cell _ _ X i fs HR) as [_ HT]. destruct (HT f face Hf Hface) as (es & HEs & HTr). clear HT.
    assert (Iab : In (a, b) (cycle_edges (poly i f)) \/ In (b, a) (cycle_edges (poly i f))).
    { apply (face_edges m poly X i fs f face e0 a b HR Hf Hface); [rewrite Hes; left; reflexivity|assumption]. }
    assert (Iab' : In a (poly i f) /\ In b (poly i f)) by (destruct Iab as [H|H]; apply cycle_edges_in in H; simpl in H; tauto).
    destruct (edge_points_length _ _ _ _ G Hab) as [La Lb]. rewrite D in La, Lb.
    assert (Hnv : forall v, In v (poly i f) -> sprod n v = sprod n c).
    { intros v Hv. apply Hcp; [auto|]. exists n0, k. splits; auto. intros q [<-|[<-|[<-|[<-|[]]]]]; auto; apply Hk; tauto. }
    set (s := side_sign m f i) in *.
    assert (Hs : s = 1 \/ s = -1) by tauto.
    assert (EFs : F = Rsum (map (fun e => tri_area c (fst e) (snd e)) (cycle_edges (poly i f)))).
    { rewrite (HFs f face c es F Hface Ec HEs EF). apply traces_sum; [|exact HTr].
      intros [u v]. unfold rev_edge, tri_area. cbn [fst snd]. f_equal. f_equal. rewrite (sprod_comm (diff v c) (diff u c)). ring. }
    pose proof (face_flux x c n s 1 (poly i f) n Lx Lc Lnn Lnn ltac:(intros v Hv; auto) Hu HLR ltac:(lra)
      ltac:(intros e He; pose proof (HV e He); lra)) as FF. rewrite <- EFs, Hu in FF.
    assert (SP : Rsum (map (fun e => triple (diff (fst e) c) (diff (snd e) c) n) (cycle_edges (poly i f))) =
                 Rsum (map (fun e => triple (fst e) (snd e) n) (cycle_edges (poly i f)))).
    { rewrite (Rsum_ext _ (fun e => triple (fst e) (snd e) n - (triple c (snd e) n - triple c (fst e) n))).
      - rewrite Rsum_minus. rewrite (cycle_telescope (fun q => triple c q n)). ring.
      - intros e He. apply cycle_edges_in in He as [H1 H2]. apply triple_split; auto. }
    assert (Hd : 0 < s * (sprod n c - sprod n x)) by (destruct HLR as [[-> H]|[-> H]]; lra).
    assert (Ess : s * s = 1) by (destruct Hs as [-> | ->]; lra).
    splits; auto.
    + rewrite SP in FF. assert (E2 : 2 * (s * s) * F = Rsum (map (fun e => triple (fst e) (snd e) n) (cycle_edges (poly i f))) * s) by nra.
      rewrite Ess in E2. lra.
    + assert (0 < 2 * F); [|lra]. replace (2 * F) with ((s * s) * 2 * F) by (rewrite Ess; ring).
      replace (s * s * 2 * F) with (s * (2 * (s * F * 1))) by ring. rewrite FF.
      replace (s * (2 * (1 / 2 * Rsum (map (fun e => triple (diff (fst e) c) (diff (snd e) c) n) (cycle_edges (poly i f)))))) with
        (s * Rsum (map (fun e => triple (diff (fst e) c) (diff (snd e) c) n) (cycle_edges (poly i f)))) by field.
      rewrite <- Rsum_scale. assert (HP : forall e, In e (cycle_edges (poly i f)) -> 0 < s * triple (diff (fst e) c) (diff (snd e) c) n).
      { intros e He. pose proof (HV e He) as V0. apply cycle_edges_in in He as [H1 H2].
        rewrite <- (vol6_rot x (fst e) (snd e) c) in V0. rewrite (vol6_side x c (fst e) (snd e) n) in V0 by auto.
        set (T := triple (diff (fst e) c) (diff (snd e) c) n) in *. set (dd := sprod n c - sprod n x) in *.
        destruct (Rlt_or_le 0 (s * T)) as [|Hle]; [assumption|exfalso].
        assert (s * T * (s * dd) <= 0) by nra. replace (s * T * (s * dd)) with ((s * s) * (T * dd)) in * by ring. rewrite Ess in *. lra. }
      apply Rsum_pos; [intros e He; apply Rlt_le; auto|]. destruct Iab as [H|H]; eexists; (split; [exact H|apply HP; exact H]).
    + intros v Hv g w Hg Hw. rewrite (Hnv v Hv). set (u := map (Rmult s) n).
      assert (SU : forall q, sprod u q = s * sprod n q).
      { unfold u. clear. induction n as [|z n IH]; intros [|y q]; simpl; try ring. rewrite IH. ring. }
      rewrite <- !SU. assert (Lu : length u = 3%nat) by (unfold u; rewrite map_length; exact Lnn).
      pose proof (poly_len m poly X i fs g w HR Hg Hw) as Lw.
      assert (Ux : sprod u x < sprod u c) by (rewrite !SU; lra).
      assert (Ua : sprod u a = sprod u c) by (rewrite !SU; rewrite Ha; reflexivity). assert (Ub : sprod u b = sprod u c) by (rewrite !SU; rewrite Hb; reflexivity).
      destruct Iab as [H|H]; pose proof (HV _ H) as V0; cbn [fst snd] in V0;
        [apply (behind n0 k u x c a b w)|apply (behind n0 k u x c b a w)]; auto; try (apply Hk; tauto); eapply Hall; eassumption.
  - apply (C75_total_volume m cc fc ls Fs Vs ns); auto; try apply X.
Qed.

(** The centres computed by initializeCenters, with either method, are interior. *)
Lemma midpoints_mean d es ps vs c : Forall2 (fun e p => is_mean d [fst e; snd e] p) es ps -> traces es (cycle_edges vs) -> is_mean d ps c -> is_mean d vs c.
Proof.
  intros HF HT [Lc Hm]. split; [assumption|]. intros k Hk. rewrite (Hm k Hk).
  assert (LE : length ps = length vs) by (rewrite <- (Forall2_length' _ _ _ HF), (traces_length _ _ HT); apply cycle_length).
  rewrite LE. f_equal. rewrite <- (cycle_sums (fun p => nth k p 0) vs).
  rewrite <- (traces_sum (fun e => (nth k (fst e) 0 + nth k (snd e) 0) / 2) es _) by (exact HT || (intros e; cbn [rev_edge fst snd]; field)).
  clear -HF Hk. induction HF as [|e p es ps [_ He] HF IH]; [reflexivity|]. cbn [map Rsum]. f_equal; [|apply IH]. rewrite (He k Hk). simpl. field.
Qed.
Lemma n_elems_3 (m : Mesh point) : m_dim m = 3%nat -> n_elems m 2 = length (m_faces m) /\ n_elems m 3 = length (m_cells m).
Proof. intros D. unfold n_elems. rewrite D. split; reflexivity. Qed.
Lemma init3 (u : UMesh numR) poly tess : let m := u_mesh u in convex_mesh3 m poly ->
  exists cc fc, initializeCenters (K := numR) tess u = Ok (mkU m fc cc (u_bcc u)) /\ length fc = length (m_faces m) /\ length cc = length (m_cells m) /\
    (forall i fs f c, ring m i fs -> In f fs -> nth_error fc (N.to_nat f) = Some c -> rel_inside (poly i f) c /\ (tess = false -> is_mean 3 (poly i f) c)) /\
    (forall i fs x, ring m i fs -> nth_error cc (N.to_nat i) = Some x ->
       exists cs, Forall2 (fun f c => nth_error fc (N.to_nat f) = Some c) fs cs /\ is_mean 3 cs x).
Proof.
  intros m X. pose proof (cx3_geo _ _ X) as G. pose proof (cx3_dim _ _ X) as D. pose proof (cx3_faces _ _ X) as HN.
  assert (Hne : forall i fs f, ring m i fs -> In f fs -> poly i f <> []).
  { intros i fs f HR Hf. destruct (cx3_cell _ _ X i fs HR) as [[_ HS] _]. apply (HS (poly i f)). apply in_map. exact Hf. }
  assert (Sub2 : forall f face, nth_error (m_faces m) (N.to_nat f) = Some face -> children m 2 f (f_subs face)).
  { intros f face Hf. unfold children, subs. nr. rewrite D. cbn. apply vat_ok in Hf. rewrite Hf. reflexivity. }
  destruct tess.
  - destruct (proj2 (C46_tessellated m G HN) D) as (es & ft & ct & E & Le & Lf & Lc & He & Hf & Hc).
    destruct (n_elems_3 m D) as [N2 N3]. pose proof (eq_trans Lf N2) as Lf'. pose proof (eq_trans Lc N3) as Lc'.
    exists ct, ft. splits; auto.
    + unfold initializeCenters. fold m. refine (eq_trans (f_equal (fun o => bind o _) E) _). cbn [bind].
      assert (D' : @m_dim (vec numR) m = 3%nat) by exact D. rewrite D'.
      rewrite (centerAt_tab [es; ft; ct] (3 - 1) ft (length (m_faces m))); [|reflexivity|exact Lf'].
      cbn [bind]. rewrite (centerAt_tab [es; ft; ct] 3 ct (length (m_cells m))); [reflexivity|reflexivity|exact Lc'].
    + intros i fs f c HR Hin Hcf. split; [|discriminate].
      destruct (ring_sides m i fs f HR Hin) as (face & Hface & _). destruct (cx3_cell _ _ X i fs HR) as [[_ HS] HT].
      destruct (HT f face Hin Hface) as (ed & HEd & HTr). clear HT.
      assert (Lv : forall v, In v (poly i f) -> length v = 3%nat) by (intros v; apply (poly_len m poly X i fs f v HR Hin)).
      destruct (HS (poly i f)) as (_ & n & k & Ln & Hk & Hle & (ws & w & Hws & Hw & Hlt) & HC); [apply in_map; exact Hin|].
      assert (Lw : length w = 3%nat).
      { apply in_map_iff in Hws as (g & <- & Hg). apply (poly_len m poly X i fs g w HR Hg Hw). }
      (* edge midpoints *)
      assert (Mid : exists ps, Forall2 (fun e p => nth_error es (N.to_nat e) = Some p) (f_subs face) ps /\ Forall2 (fun e p => is_mean 3 [fst e; snd e] p) ed ps).
      { clear -HEd Le He D. induction HEd as [|e ab js ed Hab HEd IH]; [exists []; split; constructor|]. destruct IH as (ps & H1 & H2).
        assert (Hl : (e < N.of_nat (n_elems m 1))%N) by (destruct Hab as (p & q & Hs & _); eapply subs_lt; [|exact Hs]; nr; lia).
        destruct (nth_error es (N.to_nat e)) as [p|] eqn:Ep; [|apply nth_error_None in Ep; nr; lia].
        exists (p :: ps). split; constructor; auto. exact (He e _ _ p Hab Ep). }
      destruct Mid as (ps & Hps & Hmid).
      assert (Hpsne : ps <> []).
      { intros ->. inversion Hmid; subst. apply traces_length in HTr. rewrite cycle_length in HTr. apply (Hne i fs f HR Hin). destruct (poly i f); [reflexivity|discriminate]. }
      set (c0 := map (fun j => Rsum (map (fun p => nth j p 0) ps) / INR (length ps)) [0; 1; 2]%nat).
      assert (Hc0 : is_mean 3 ps c0).
      { split; [reflexivity|]. intros j Hj. unfold c0. destruct j as [|[|[|j]]]; [reflexivity|reflexivity|reflexivity|lia]. }
      pose proof (midpoints_mean 3 ed ps (poly i f) c0 Hmid HTr Hc0) as Hm0.
      pose proof (mean_inside _ _ Hm0 (Hne i fs f HR Hin)) as Hi0.
      assert (Or : forall e, In e (cycle_edges (poly i f)) -> 0 < vol6 w c0 (fst e) (snd e)) by (intros e Hec; exact (proj1 (proj2 (face_orient n k (poly i f) w c0 e Ln Lv Lw Hk HC Hi0 Hlt Hec)))).
      assert (Or' : forall e, In e ed -> vol6 w c0 (fst e) (snd e) <> 0).
      { intros e Hed. destruct (traces_out _ _ _ HTr Hed) as [Q|Q]; apply Or in Q; [lra|]. cbn [rev_edge fst snd] in Q. rewrite vol6_flip in Q. lra. }
      assert (Le3 : forall e, In e ed -> length (fst e) = 3%nat /\ length (snd e) = 3%nat /\ In (fst e) (poly i f) /\ In (snd e) (poly i f)).
      { intros e Hed. assert (Q : In (fst e) (poly i f) /\ In (snd e) (poly i f)).
        { destruct (traces_out _ _ _ HTr Hed) as [Q|Q]; apply cycle_edges_in in Q; cbn [rev_edge fst snd] in Q; tauto. }
        destruct Q. splits; auto. }
      set (tris := map (fun e => (c0, fst e, snd e)) ed).
      assert (HS0 : 0 < Rsum (map tri_S tris)).
      { assert (HP : forall e, In e ed -> 0 < tri_area c0 (fst e) (snd e)).
        { intros e Hed. destruct (Le3 e Hed) as (A & B & _ & _).
          pose proof (Or' e Hed) as Hv. rewrite <- (vol6_rot w (fst e) (snd e) c0) in Hv.
          destruct (gs3_outward c0 (fst e) (snd e) w (proj1 Hm0) A B Lw Hv) as (e0' & e1 & e2 & n0 & n1 & n2 & _ & _ & EA & _ & _ & P).
          assert (tri_area c0 (fst e) (snd e) <> 0) by (rewrite <- EA; lra).
          assert (0 <= tri_area c0 (fst e) (snd e)) by (unfold tri_area; apply Rmult_le_pos; [apply sqrt_pos|lra]). lra. }
        unfold tris. rewrite map_map. cbn [tri_S fst snd]. unfold tri_S. cbn [fst snd]. apply Rsum_pos; [intros e Hed; apply Rlt_le, HP, Hed|].
        destruct ed as [|e ed]; [exfalso; apply Hpsne; inversion Hmid; reflexivity|]. exists e. split; [left; reflexivity|apply HP; left; reflexivity]. }
      apply (centroid_inside (poly i f) c0 tris c Hm0 (Hne i fs f HR Hin)); [|exact HS0|].
      * intros t Ht. unfold tris in Ht. apply in_map_iff in Ht as (e & <- & Hed). cbn [fst snd]. destruct (Le3 e Hed). tauto.
      * apply (Hf f (f_subs face) ps c0 tris c); auto; [|lra].
        unfold tris. assert (Q : forall e, In e ed -> c0 <> fst e).
        { intros e Hed Ee. apply (Or' e Hed). rewrite Ee. unfold vol6, det3. ring. }
        clear -HEd Q. induction HEd as [|e ab js ed Hab HEd IH]; [constructor|]. cbn [map]. constructor; [|apply IH; intros; apply Q; right; assumption].
        cbn [fst snd]. splits; auto. apply Q. left. reflexivity.
    + intros i fs x HR Hx. apply (Hc i fs x); [|exact Hx]. unfold children. nr. rewrite D. exact HR.
  - destruct (C76_initializeCenters u G HN) as (cs & fc & cc & E & S & Hf & Hc & Lf & Lc). cbv zeta in *. fold m in E, S, Hf, Hc, Lf, Lc.
    assert (D' : @m_dim (vec numR) m = 3%nat) by exact D. rewrite D' in Hf, Hc. cbn [Nat.sub] in Hf, Hc.
    exists cc, fc. splits; auto.
    + intros i fs f c HR Hin Hcf. destruct (ring_sides m i fs f HR Hin) as (face & Hface & _). destruct (cx3_cell _ _ X i fs HR) as [_ HT].
      destruct (HT f face Hin Hface) as (ed & HEd & HTr). clear HT.
      assert (Hm : is_mean 3 (poly i f) c).
      { rewrite <- D. apply (polygon_center m cs f (f_subs face) ed (poly i f) c S ltac:(lia)); auto.
        unfold at_. cbn [Nat.sub]. nr. rewrite Hf. exact Hcf. }
      split; [|auto]. apply mean_inside; [exact Hm|]. apply (Hne i fs f HR Hin).
    + intros i fs x HR Hx. destruct (cs_mean _ _ S 3 i fs x) as (ps & HF & Hm); [clear -D; nr; lia| | |].
      * unfold children. nr. rewrite D. exact HR.
      * unfold at_. cbn [Nat.sub]. nr. rewrite Hc. exact Hx.
      * exists ps. split; [|rewrite <- D; exact Hm]. eapply Forall2_mono; [|exact HF]. intros f c Q. cbn [Nat.sub] in Q. unfold at_ in Q. cbn [Nat.sub] in Q. nr. rewrite Hf in Q. exact Q.
Qed.
Lemma Forall2_map_l' {A B C} (P : B -> C -> Prop) (g : A -> B) l k : Forall2 (fun a c => P (g a) c) l k -> Forall2 P (map g l) k.
Proof. induction 1; constructor; auto. Qed.
Lemma tess_same (m : Mesh point) poly cc fc : convex_mesh3 m poly -> centers_inside m poly cc fc ->
  computeNormals3_tess (K := numR) m cc fc = computeNormals3 (K := numR) m cc fc.
Proof.
  intros X I. pose proof (convex_regular m poly cc fc X I) as RG. pose proof RG as [G HN D [L1 Lcc] [L2 Lfc] Hne Hside Hpl].
  apply mapM_ext. intros f Hf. apply in_seqN in Hf.
  destruct (nth_error (m_faces m) (N.to_nat f)) as [face|] eqn:Hface; [|apply nth_error_None in Hface; nr; lia].
  destruct (nth_error fc (N.to_nat f)) as [c|] eqn:Hc; [|apply nth_error_None in Hc; nr; lia].
  destruct (Hside face (nth_error_In _ _ Hface)) as (x & l & Hx).
  assert (Q : exists i fs, ring m i fs /\ In f fs /\ nth_error cc (N.to_nat i) = Some x).
  { destruct l; simpl in Hx.
    - destruct Hx as [_ Hx]. destruct (side_ring m poly X f face _ Hface (center_cell m poly cc fc I _ _ Hx) (or_introl eq_refl)) as (fs & HR & Hin). eauto.
    - destruct Hx as (_ & _ & Hx). destruct (side_ring m poly X f face _ Hface (center_cell m poly cc fc I _ _ Hx) (or_intror eq_refl)) as (fs & HR & Hin). eauto. }
  destruct Q as (i & fs & HR & Hin & Hxi). pose proof I as (_ & _ & _ & _ & HI).
  destruct (HI i fs f x c HR Hin Hxi Hc) as (n & k & Ln & Hn & Hk & Hck & _ & _ & HV).
  destruct (cx3_cell _ _ X i fs HR) as [_ HT]. destruct (HT f face Hin Hface) as (ed & HEd & HTr). clear HT.
  set (tris := map (fun e => (c, fst e, snd e)) ed).
  assert (InE : forall e, In e ed -> vol6 x c (fst e) (snd e) <> 0 /\ In (fst e) (poly i f) /\ In (snd e) (poly i f)).
  { intros e Hed. destruct (traces_out _ _ _ HTr Hed) as [Q|Q]; pose proof (HV _ Q) as V0; apply cycle_edges_in in Q; cbn [rev_edge fst snd] in *.
    - splits; try tauto. lra.
    - splits; try tauto. rewrite vol6_flip in V0. lra. }
  assert (Hsub : f_subs face <> []).
  { intros Hes. apply (HN 2%nat f []); [lia| |reflexivity].
    unfold subs. rewrite D. simpl. apply vat_ok in Hface. rewrite Hface. simpl. rewrite Hes. reflexivity. }
  destruct (C44_tessellated m cc fc f face x l c tris G D Lcc Lfc Hface Hx Hc Hsub) as (_ & n' & os & E & _ & _ & _ & Hcop).
  - unfold tris. clear -HEd InE. induction HEd as [|e ab js ed Hab HEd IH]; [constructor|]. cbn [map].
    constructor; [|apply IH; intros; apply InE; right; assumption]. cbn [fst snd]. splits; auto. rewrite vol6_rot. apply InE. left. reflexivity.
  - destruct Hcop as [E2 _].
    + exists n, k. splits; auto. intros p [<-|Hp]; [exact Hck|]. apply in_flat_map in Hp as (t & Ht & Hp). unfold tris in Ht.
      apply in_map_iff in Ht as (e & <- & Hed). cbn [fst snd] in Hp. destruct (InE e Hed) as (_ & A & B). destruct Hp as [<-|[<-|[]]]; apply Hk; assumption.
    + exact (eq_trans E (eq_sym E2)).
Qed.

(** C78. A spatial mesh of convex polyhedra. With either method of computing the centres and the normals: initializeCenters puts every
    face centre into the interior of the face (at the mean of its vertices with the default method) and every cell centre into the
    interior of the cell; computeElementMeasures gives every cell the volume of its polyhedron (positive), every face the area
    of its polygon (twice the area is the sum of the triple products of the sides with the normal, i.e. the shoelace formula
    in the plane of the face) and every edge its length; the normals are unit vectors, orthogonal to the faces, such that the whole left cell is
    behind the face and the whole right cell in front of it; and the flux of the position field through the boundary is three
    times the total volume. *)
Theorem C78_convex3 : forall (u : UMesh numR) poly tess tess' tess'', let m := u_mesh u in convex_mesh3 m poly ->
  exists u' ls Fs Vs ns, initializeCenters (K := numR) tess u = Ok u' /\ u_mesh u' = m /\
    elementMeasures (K := numR) tess' u' = Ok [ls; Fs; Vs] /\ faceNormals (K := numR) tess'' u' = Ok ns /\
    length (u_fc u') = length (m_faces m) /\ length (u_cc u') = length (m_cells m) /\
    length Fs = length (m_faces m) /\ length ns = length (m_faces m) /\ length Vs = length (m_cells m) /\
    (forall e a b, edge_points m e a b -> nth_error ls (N.to_nat e) = Some (dist a b)) /\
    (forall i fs, ring m i fs -> exists x, nth_error (u_cc u') (N.to_nat i) = Some x /\ rel_inside (concat (map (poly i) fs)) x /\
       nth_error Vs (N.to_nat i) = Some (poly_volume (map (poly i) fs)) /\ 0 < poly_volume (map (poly i) fs)) /\
    (forall i fs f, ring m i fs -> In f fs -> exists c n F, nth_error (u_fc u') (N.to_nat f) = Some c /\
       nth_error ns (N.to_nat f) = Some n /\ nth_error Fs (N.to_nat f) = Some F /\
       rel_inside (poly i f) c /\ (tess = false -> is_mean 3 (poly i f) c) /\
       let s := side_sign m f i in (s = 1 \/ s = -1) /\ length n = 3%nat /\ sprod n n = 1 /\
       2 * F = Rsum (map (fun e => triple (fst e) (snd e) n) (cycle_edges (poly i f))) * s /\ 0 < F /\
       forall v, In v (poly i f) -> forall g w, In g fs -> In w (poly i g) -> s * sprod n w <= s * sprod n v) /\
    3 * Rsum Vs = Rsum (map (fun f => boundary_sign m f * (nth (N.to_nat f) Fs 0 * sprod (nth (N.to_nat f) ns []) (nth (N.to_nat f) (u_fc u') [])))
                          (seqN (length (m_faces m)))).
Proof.
  intros u poly tess tess' tess'' m X.
  destruct (init3 u poly tess X) as (cc & fc & E & Lf & Lc & Hfc & Hcc). fold m in E, Lf, Lc, Hfc, Hcc.
  pose proof (cx3_geo _ _ X) as G. pose proof (cx3_dim _ _ X) as D.
  assert (Hne : forall i fs f, ring m i fs -> In f fs -> poly i f <> []).
  { intros i fs f HR Hf. destruct (cx3_cell _ _ X i fs HR) as [[_ HS] _]. apply (HS (poly i f)). apply in_map. exact Hf. }
  assert (HXin : forall i fs x, ring m i fs -> nth_error cc (N.to_nat i) = Some x -> rel_inside (concat (map (poly i) fs)) x).
  { intros i fs x HR Hx. destruct (Hcc i fs x HR Hx) as (cs & HF & Hm). apply (inside_union _ cs).
    - destruct HR as (f0 & r & -> & _). discriminate.
    - apply Forall2_map_l'. assert (Hinc : incl fs fs) by apply incl_refl. revert Hinc HF. generalize fs at 1 3 4 as gs. clear Hm.
      intros gs Hinc HF. induction HF as [|f c gs cs Hc HF IH]; constructor; [|apply IH; intros g Hg; apply Hinc; right; exact Hg].
      apply (Hfc i fs f c HR); [apply Hinc; left; reflexivity|exact Hc].
    - exact Hm. }
  assert (I : centers_inside m poly cc fc).
  { split; [exact Lc|]. split; [|split; [exact Lf|split]].
    - intros p Hp. destruct (In_nth_error _ _ Hp) as (j & Hj). assert (Hlt : (j < length cc)%nat) by (apply nth_error_Some; nr; congruence).
      destruct (wf_ring _ (geo_wf _ G) (N.of_nat j)) as (fs & HR); [nr; lia|]. apply (HXin (N.of_nat j) fs p HR). rewrite Nat2N.id. exact Hj.
    - intros p Hp. destruct (In_nth_error _ _ Hp) as (j & Hj). assert (Hlt : (j < length fc)%nat) by (apply nth_error_Some; nr; congruence).
      destruct (nth_error (m_faces m) j) as [face|] eqn:Ef; [|apply nth_error_None in Ef; nr; lia].
      assert (Q : exists i, is_cell m i = true /\ (cellLeft (bc (f_conn face)) = i \/ cellRight (bc (f_conn face)) = i)).
      { destruct (cx3_side _ _ X face (nth_error_In _ _ Ef)) as [H|[_ H]]; eauto. }
      destruct Q as (i & Hi & Hs). rewrite <- (Nat2N.id j) in Ef, Hj.
      destruct (side_ring m poly X _ face i Ef Hi Hs) as (fs & HR & Hin). exact (proj1 (proj1 (Hfc i fs _ p HR Hin Hj))).
    - intros i fs f x c HR Hin Hx Hc. destruct (cx3_cell _ _ X i fs HR) as [[_ HS] _].
      destruct (HS (poly i f)) as (_ & n & k & Ln & Hk & Hle & Hex & HC); [apply in_map; exact Hin|].
      pose proof (HXin i fs x HR Hx) as HI. pose proof (proj1 (Hfc i fs f c HR Hin Hc)) as HIc.
      assert (Lall : forall p, In p (concat (map (poly i) fs)) -> length p = 3%nat).
      { intros p Hp. apply in_concat in Hp as (ws & Hws & Hp). apply in_map_iff in Hws as (g & <- & Hg). apply (poly_len m poly X i fs g p HR Hg Hp). }
      assert (Hxk : sprod n x < k).
      { apply (inside_le n k _ x Ln Lall HI).
        - intros p Hp. apply in_concat in Hp as (ws & Hws & Hp). eapply Hle; eassumption.
        - destruct Hex as (ws & v & Hws & Hv & Hlt). exists v. split; [apply in_concat; eauto|exact Hlt]. }
      assert (Lv : forall v, In v (poly i f) -> length v = 3%nat) by (intros v; apply (poly_len m poly X i fs f v HR Hin)).
      assert (FO : forall e, In e (cycle_edges (poly i f)) -> 0 < vol6 x c (fst e) (snd e) /\ sprod n n <> 0 /\ sprod n c = k).
      { intros e He. apply (face_orient n k (poly i f) x c e Ln Lv (proj1 HI) Hk HC HIc Hxk He). }
      assert (Hex1 : exists e, In e (cycle_edges (poly i f))).
      { destruct (cycle_edges (poly i f)) as [|e l] eqn:Ec; [|exists e; left; reflexivity]. exfalso. apply (Hne i fs f HR Hin).
        apply (f_equal (@length _)) in Ec. rewrite cycle_length in Ec. destruct (poly i f); [reflexivity|discriminate]. }
      destruct Hex1 as (e1 & He1). destruct (FO e1 He1) as (_ & Hnn & Hck). exists n, k. splits; auto.
      + intros g v Hg Hv. apply (Hle (poly i g) v); [apply in_map; exact Hg|exact Hv].
      + intros e He. apply FO. exact He. }
  destruct (convex3_core m poly cc fc X I) as (ls & Fs & Vs & ns & EM & EN & LF & Ln & LV & He & HVol & HFace & HTot).
  exists (mkU m fc cc (u_bcc u)), ls, Fs, Vs, ns. cbn [u_mesh u_fc u_cc]. assert (D' : @m_dim (vec numR) m = 3%nat) by exact D.
  splits; auto.
  - unfold elementMeasures. cbn [u_mesh u_fc u_cc]. rewrite D'. refine (eq_trans (f_equal (fun o => bind o _) EM) _). reflexivity.
  - unfold faceNormals. cbn [u_mesh u_fc u_cc]. rewrite D'. destruct tess''; [|exact EN]. exact (eq_trans (tess_same m poly cc fc X I) EN).
  - intros i fs HR. assert (Hi : is_cell m i = true).
    { destruct HR as (f0 & r & _ & Hc & _). apply N.ltb_lt. assert (N.to_nat i < length (m_cells m))%nat by (apply nth_error_Some; nr; congruence). lia. }
    destruct (cell_center m poly cc fc I i Hi) as (x & Hx & _). exists x. destruct (HVol i fs HR). splits; auto. 
  - intros i fs f HR Hin. destruct (HFace i fs f HR Hin) as (n & F & H1 & H2 & H3).
    pose proof (ring_lt m i fs f HR Hin) as Hlt. destruct (nth_error fc (N.to_nat f)) as [c|] eqn:Ec; [|apply nth_error_None in Ec; nr; lia].
    exists c, n, F. destruct (Hfc i fs f c HR Hin Ec). repeat (split; [assumption || reflexivity|]). exact H3.
Qed.
Print Assumptions C78_convex3.

(** * Non-vacuity: two tetrahedra with a common face; their volumes are 1/6 and 1/3. *)
Definition tetsP (i f : N) : list point :=
  match i, f with
  | 0%N, 0%N => [[1;0;0]; [0;1;0]; [0;0;1]] | 0%N, 1%N => [[0;0;0]; [0;0;1]; [0;1;0]]
  | 0%N, 2%N => [[0;0;0]; [1;0;0]; [0;0;1]] | 0%N, 3%N => [[0;0;0]; [0;1;0]; [1;0;0]]
  | 1%N, 4%N => [[1;1;1]; [0;1;0]; [0;0;1]] | 1%N, 5%N => [[1;1;1]; [0;0;1]; [1;0;0]]
  | 1%N, 6%N => [[1;1;1]; [1;0;0]; [0;1;0]] | 1%N, 0%N => [[1;0;0]; [0;0;1]; [0;1;0]]
  | _, _ => []
  end.
Ltac conv_face n k w0 :=
  split; [discriminate|]; exists n, k; splits;
  [ reflexivity
  | let v := fresh in let H := fresh in intros v H; simpl in H; repeat (destruct H as [<-|H]; [simpl; lra|]); destruct H
  | let ws := fresh in let v := fresh in let H := fresh in let Hv := fresh in intros ws v H Hv; simpl in H;
    repeat (destruct H as [<-|H]; [simpl in Hv; repeat (destruct Hv as [<-|Hv]; [simpl; lra|]); destruct Hv|]); destruct H
  | w0
  | let e := fresh in let H := fresh in intros e H; simpl in H; repeat (destruct H as [<-|H]; [split;
      [let q := fresh in let Hq := fresh in intros q Hq; simpl in Hq; repeat (destruct Hq as [<-|Hq]; [unfold triple, det3, px, py, pz; simpl; lra|]); destruct Hq
      |first [eexists; split; [left; reflexivity|unfold triple, det3, px, py, pz; simpl; lra]
             |eexists; split; [right; left; reflexivity|unfold triple, det3, px, py, pz; simpl; lra]
             |eexists; split; [right; right; left; reflexivity|unfold triple, det3, px, py, pz; simpl; lra]]]|]); destruct H ].
Lemma tets_solid0 : convex_solid (map (tetsP 0) [0;1;2;3]%N).
Proof.
  split.
  - unfold closed_surface. cbn [map tetsP flat_map cycle_edges path_edges app]. unfold rev_edge. cbn [fst snd]. perm_tac.
  - cbn [map tetsP]. intros vs [<-|[<-|[<-|[<-|[]]]]].
    + conv_face [1;1;1] 1 ltac:(exists [[0;0;0]; [0;0;1]; [0;1;0]], [0;0;0]; splits; [simpl; auto|simpl; auto|simpl; lra]).
    + conv_face [-1;0;0] 0 ltac:(exists [[1;0;0]; [0;1;0]; [0;0;1]], [1;0;0]; splits; [simpl; auto|simpl; auto|simpl; lra]).
    + conv_face [0;-1;0] 0 ltac:(exists [[1;0;0]; [0;1;0]; [0;0;1]], [0;1;0]; splits; [simpl; auto|simpl; auto|simpl; lra]).
    + conv_face [0;0;-1] 0 ltac:(exists [[1;0;0]; [0;1;0]; [0;0;1]], [0;0;1]; splits; [simpl; auto|simpl; auto|simpl; lra]).
Qed.
Lemma tets_solid1 : convex_solid (map (tetsP 1) [4;5;6;0]%N).
Proof.
  split.
  - unfold closed_surface. cbn [map tetsP flat_map cycle_edges path_edges app]. unfold rev_edge. cbn [fst snd]. perm_tac.
  - cbn [map tetsP]. intros vs [<-|[<-|[<-|[<-|[]]]]].
    + conv_face [-1;1;1] 1 ltac:(exists [[1;0;0]; [0;0;1]; [0;1;0]], [1;0;0]; splits; [simpl; auto|simpl; auto|simpl; lra]).
    + conv_face [1;-1;1] 1 ltac:(exists [[1;0;0]; [0;0;1]; [0;1;0]], [0;1;0]; splits; [simpl; auto|simpl; auto|simpl; lra]).
    + conv_face [1;1;-1] 1 ltac:(exists [[1;0;0]; [0;0;1]; [0;1;0]], [0;0;1]; splits; [simpl; auto|simpl; auto|simpl; lra]).
    + conv_face [-1;-1;-1] (-1) ltac:(exists [[1;1;1]; [0;1;0]; [0;0;1]], [1;1;1]; splits; [simpl; auto|simpl; auto|simpl; lra]).
Qed.
Lemma tets_ring i fs : ring tetsR i fs -> i = 0%N /\ fs = [0;1;2;3]%N \/ i = 1%N /\ fs = [4;5;6;0]%N.
Proof.
  intros HR. assert (Hi : (i < 2)%N).
  { destruct HR as (f0 & r & _ & H & _). assert (N.to_nat i < length (m_cells tetsR))%nat by (apply nth_error_Some; congruence). simpl in H0. lia. }
  assert (i = 0 \/ i = 1)%N as [-> | ->] by lia; [left|right]; (split; [reflexivity|]).
  - apply (ring_det tetsR 0 _ _ HR). apply ring_iff. vm_compute. reflexivity.
  - apply (ring_det tetsR 1 _ _ HR). apply ring_iff. vm_compute. reflexivity.
Qed.
Lemma tets_es (face : Face) es : map (fun e => nth_error tetsE (N.to_nat e)) (f_subs face) = map Some es ->
  Forall2 (fun e ab => edge_points tetsR e (fst ab) (snd ab)) (f_subs face) es.
Proof.
  generalize (f_subs face) as l. intros l. revert es. induction l as [|e l IH]; intros [|[a b] es] He; try discriminate He; constructor.
  - injection He as H _. apply tets_edge' in H. rewrite N2Nat.id in H. exact H.
  - apply IH. injection He as _ H. exact H.
Qed.
Lemma tets_convex : convex_mesh3 tetsR tetsP.
Proof.
  pose proof tets_regular as RG. destruct tetsR_geo as [G HN]. constructor.
  - exact G.
  - reflexivity.
  - exact HN.
  - apply (r3_edges _ _ _ RG).
  - apply sides_match_check. vm_compute. reflexivity.
  - vm_compute. discriminate.
  - intros i fs HR. destruct (tets_ring i fs HR) as [[-> ->]|[-> ->]].
    + split; [exact tets_solid0|]. intros f face Hin Hf. simpl in Hin. destruct Hin as [<-|[<-|[<-|[<-|[]]]]]; injection Hf as <-.
      * exists [([1;0;0],[0;1;0]); ([0;1;0],[0;0;1]); ([0;0;1],[1;0;0])]. split; [apply tets_es; reflexivity|]. cbn [tetsP].
        trace_tac [([1;0;0],[0;1;0]); ([0;1;0],[0;0;1]); ([0;0;1],[1;0;0])].
      * exists [([0;0;0],[0;1;0]); ([0;1;0],[0;0;1]); ([0;0;0],[0;0;1])]. split; [apply tets_es; reflexivity|]. cbn [tetsP].
        trace_tac [([0;1;0],[0;0;0]); ([0;0;1],[0;1;0]); ([0;0;0],[0;0;1])].
      * exists [([0;0;0],[1;0;0]); ([0;0;0],[0;0;1]); ([0;0;1],[1;0;0])]. split; [apply tets_es; reflexivity|]. cbn [tetsP].
        trace_tac [([0;0;0],[1;0;0]); ([0;0;1],[0;0;0]); ([1;0;0],[0;0;1])].
      * exists [([0;0;0],[1;0;0]); ([1;0;0],[0;1;0]); ([0;0;0],[0;1;0])]. split; [apply tets_es; reflexivity|]. cbn [tetsP].
        trace_tac [([1;0;0],[0;0;0]); ([0;1;0],[1;0;0]); ([0;0;0],[0;1;0])].
    + split; [exact tets_solid1|]. intros f face Hin Hf. simpl in Hin. destruct Hin as [<-|[<-|[<-|[<-|[]]]]]; injection Hf as <-.
      * exists [([1;1;1],[0;1;0]); ([0;1;0],[0;0;1]); ([1;1;1],[0;0;1])]. split; [apply tets_es; reflexivity|]. cbn [tetsP].
        trace_tac [([1;1;1],[0;1;0]); ([0;1;0],[0;0;1]); ([0;0;1],[1;1;1])].
      * exists [([1;1;1],[1;0;0]); ([0;0;1],[1;0;0]); ([1;1;1],[0;0;1])]. split; [apply tets_es; reflexivity|]. cbn [tetsP].
        trace_tac [([1;0;0],[1;1;1]); ([0;0;1],[1;0;0]); ([1;1;1],[0;0;1])].
      * exists [([1;1;1],[1;0;0]); ([1;0;0],[0;1;0]); ([1;1;1],[0;1;0])]. split; [apply tets_es; reflexivity|]. cbn [tetsP].
        trace_tac [([1;1;1],[1;0;0]); ([1;0;0],[0;1;0]); ([0;1;0],[1;1;1])].
      * exists [([1;0;0],[0;1;0]); ([0;1;0],[0;0;1]); ([0;0;1],[1;0;0])]. split; [apply tets_es; reflexivity|]. cbn [tetsP].
        trace_tac [([0;1;0],[1;0;0]); ([0;0;1],[0;1;0]); ([1;0;0],[0;0;1])].
  - intros face Hin. left. apply In_nth_error in Hin as (k & Hk). rewrite <- (Nat2N.id k) in Hk. destruct (tets_table _ _ Hk) as [T E].
    generalize dependent (N.of_nat k). intros f Hf T E. clear Hf.
    assert (L : cellLeft (bc (f_conn face)) = 0%N \/ cellLeft (bc (f_conn face)) = 1%N).
    { generalize dependent (cellRight (bc (f_conn face))). generalize INVALID. intros v r T.
      destruct E as [->|[->|[->|[->|[->|[->| ->]]]]]]; injection T; intros; subst; auto. }
    destruct L as [L|L]; rewrite L; reflexivity.
  - intros f face Hf l r Hl Hr. destruct (tets_table _ _ Hf) as [T E]. unfold l, r in *. clear l r Hf.
    assert (HI : is_cell tetsR INVALID = false) by (vm_compute; reflexivity).
    generalize dependent (cellRight (bc (f_conn face))). generalize dependent (cellLeft (bc (f_conn face))). generalize dependent INVALID.
    intros v HI l Hl r Hr T.
    destruct E as [->|[->|[->|[->|[->|[->| ->]]]]]]; injection T as _ EL ER; subst l r; try (rewrite HI in Hr; discriminate Hr).
    intros e He. simpl in He. destruct He as [<-|[<-|[<-|[]]]]; simpl; auto.
Qed.
Example C78_instance : convex_mesh3 tetsR tetsP /\ ring tetsR 0 [0;1;2;3]%N /\ ring tetsR 1 [4;5;6;0]%N /\
  poly_volume (map (tetsP 0) [0;1;2;3]%N) = 1/6 /\ poly_volume (map (tetsP 1) [4;5;6;0]%N) = 1/3 /\
  forall tess tess', exists u' ls Fs, initializeCenters (K := numR) tess (fresh (K := numR) tetsR) = Ok u' /\ elementMeasures (K := numR) tess' u' = Ok [ls; Fs; [1/6; 1/3]].
Proof.
  assert (R0 : ring tetsR 0 [0;1;2;3]%N) by (apply ring_iff; vm_compute; reflexivity).
  assert (R1 : ring tetsR 1 [4;5;6;0]%N) by (apply ring_iff; vm_compute; reflexivity).
  assert (V0 : poly_volume (map (tetsP 0) [0;1;2;3]%N) = 1/6) by (unfold poly_volume, face_fan, vol6, det3, px, py, pz; simpl; field).
  assert (V1 : poly_volume (map (tetsP 1) [4;5;6;0]%N) = 1/3) by (unfold poly_volume, face_fan, vol6, det3, px, py, pz; simpl; field).
  splits; auto; [exact tets_convex|]. intros tess tess'.
  destruct (C78_convex3 (fresh (K := numR) tetsR) tetsP tess tess' false tets_convex) as (u' & ls & Fs & Vs & ns & E & _ & EM & _ & _ & _ & _ & _ & LV & _ & HV & _).
  exists u', ls, Fs. split; [exact E|]. rewrite EM. do 4 f_equal. cbn [u_mesh fresh] in *.
  destruct (HV 0%N _ R0) as (_ & _ & _ & Q0 & _). destruct (HV 1%N _ R1) as (_ & _ & _ & Q1 & _). rewrite V0 in Q0. rewrite V1 in Q1.
  change (length (m_cells tetsR)) with 2%nat in LV. destruct Vs as [|v0 [|v1 [|? ?]]]; try discriminate LV.
  injection Q0 as ->. injection Q1 as ->. reflexivity.
Qed.

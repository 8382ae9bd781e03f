(** C74: the discrete Gauss theorem for planar meshes. Lengths, normals and areas, computed by different functions of the
    library, fit together. Exact real arithmetic. *)
From Coq Require Import Reals Lra Permutation.
From Verif Require Import P_Base M_Conn M_Index M_Mesh M_Apply S_Mesh P_Apply M_Vec S_Vec P_Vec M_Geom S_Geom P_Geom P_Normals S_Polygon P_Polygon
  S_Flux P_Flux T_Flux Ex_Mesh Ex_Geom T_Dist T_Measure2 T_Normals.
Local Open Scope R_scope.

(** Sum over an edge list along a cycle, with the sign of the traversal. *)
Lemma traces_signed (g : point * point -> R) (h : point * point -> R) es ds :
  (forall e, g (rev_edge e) = - g e) -> traces es ds ->
  (forall e d, In e es -> In d ds -> d = e \/ d = rev_edge e -> h e = g d) ->
  Rsum (map h es) = Rsum (map g ds).
Proof.
  intros Hg (ds' & HP & HF) H. rewrite (Rsum_perm _ _ (Permutation_map g HP)).
  assert (H' : forall e d, In e es -> In d ds' -> d = e \/ d = rev_edge e -> h e = g d).
  { intros e d He Hd. apply H; [assumption|]. apply (Permutation_in _ (Permutation_sym HP) Hd). }
  clear H HP ds. induction HF as [|e d es ds' Hed HF IH]; [reflexivity|]. cbn [map Rsum].
  rewrite (H' e d (or_introl eq_refl) (or_introl eq_refl) Hed). f_equal. apply IH. intros e' d' He' Hd'. apply H'; right; assumption.
Qed.

Lemma Rsum_Forall2 {A B} (f : A -> R) (g : B -> R) (P : A -> B -> Prop) la lb : Forall2 P la lb ->
  (forall a b, In a la -> In b lb -> P a b -> f a = g b) -> Rsum (map f la) = Rsum (map g lb).
Proof.
  induction 1 as [|a b la lb H HF IH]; intros Hfg; [reflexivity|]. cbn [map Rsum].
  rewrite (Hfg a b (or_introl eq_refl) (or_introl eq_refl) H), IH; [reflexivity|]. intros; apply Hfg; try (right; assumption); assumption.
Qed.
Lemma Forall2_In_r {A B} (Q : A -> B -> Prop) l k b : Forall2 Q l k -> In b k -> exists a, In a l /\ Q a b.
Proof.
  induction 1 as [|x y l k H _ IH]; intros K; [destruct K|]. destruct K as [->|K]; [exists x; split; [left; reflexivity|assumption]|].
  destruct (IH K) as (a & Ha & Hq). exists a. split; [right; assumption|assumption].
Qed.
(** The flux of the constant field w through the edge from a to b, to the right. *)
Definition edge_flux (w : point) (e : point * point) : R :=
  px w * (py (snd e) - py (fst e)) - py w * (px (snd e) - px (fst e)).
Lemma edge_flux_rev w e : edge_flux w (rev_edge e) = - edge_flux w e.
Proof. unfold edge_flux, rev_edge. cbn [fst snd]. ring. Qed.
Lemma cycle_flux w vs : Rsum (map (edge_flux w) (cycle_edges vs)) = 0.
Proof.
  rewrite <- (cycle_telescope (fun p => px w * py p - py w * px p) vs). apply Rsum_ext. intros e _. unfold edge_flux. ring.
Qed.
Lemma normal_flux (n a b w : point) : length n = 2%nat -> length a = 2%nat -> length b = 2%nat -> length w = 2%nat ->
  (forall p, length p = 2%nat -> (sprod n a - sprod n p) * dist a b = area2 p a b) ->
  dist a b * sprod n w = edge_flux w (a, b).
Proof.
  intros Ln La Lb Lw H. destruct n as [|n0 [|n1 [|? ?]]]; try discriminate Ln. destruct a as [|a0 [|a1 [|? ?]]]; try discriminate La.
  destruct b as [|b0 [|b1 [|? ?]]]; try discriminate Lb. destruct w as [|w0 [|w1 [|? ?]]]; try discriminate Lw.
  pose proof (H [a0 - w0; a1 - w1] eq_refl) as Q. unfold area2, det2, edge_flux, px, py in *. cbn [nth fst snd sprod] in *.
  replace (w0 * (b1 - a1) - w1 * (b0 - a0)) with ((a0 - (a0 - w0)) * (b1 - (a1 - w1)) - (a1 - (a1 - w1)) * (b0 - (a0 - w0))) by ring.
  rewrite <- Q. ring.
Qed.

(** C74. One cell. [ls], [As] are the computed lengths and areas, [ns] the computed normals; c is the centre used for the cell i, which
    has the edges fs and is a polygon vs that is star-shaped around c. With s f = 1 for the edges whose normal points out of
    the cell (away from c) and s f = -1 for those whose normal points into it: the outward normals, weighted by the
    lengths, add up to zero (the flux of every constant field w vanishes), and the flux of the identity field is twice the area. *)
Theorem C74_gauss2 : forall m cc ls As ns, geo_mesh m -> m_dim m = 2%nat -> length cc = length (m_cells m) ->
  computeMeasures2 (K := numR) m cc = Ok (ls, As) -> computeNormals2 (K := numR) m = Ok ns ->
  forall i c fs es vs A (s : N -> R) (P : N -> point), nth_error cc (N.to_nat i) = Some c -> length c = 2%nat -> ring m i fs ->
    Forall2 (fun f e => edge_points m f (fst e) (snd e)) fs es -> traces es (cycle_edges vs) ->
    (forall e, In e (cycle_edges vs) -> 0 <= area2 c (fst e) (snd e)) \/ (forall e, In e (cycle_edges vs) -> area2 c (fst e) (snd e) <= 0) ->
    (forall f a b, In f fs -> edge_points m f a b -> a <> b /\
       (s f = 1 /\ sprod (nth (N.to_nat f) ns []) c < sprod (nth (N.to_nat f) ns []) a \/
        s f = -1 /\ sprod (nth (N.to_nat f) ns []) a < sprod (nth (N.to_nat f) ns []) c)) ->
    (forall f, In f fs -> on_edge m f (P f)) ->
    nth_error As (N.to_nat i) = Some A ->
    (forall w, length w = 2%nat -> Rsum (map (fun f => s f * nth (N.to_nat f) ls 0 * sprod (nth (N.to_nat f) ns []) w) fs) = 0) /\
    Rsum (map (fun f => s f * nth (N.to_nat f) ls 0 * sprod (nth (N.to_nat f) ns []) (P f)) fs) = 2 * A.
Proof.
  intros m cc ls As ns G D Lcc EM EN i c fs es vs A s P Hc Lc HR HF HT Hor Hs HP HA.
  destruct (C45_measures2 m cc G D Lcc) as (ls' & As' & EM' & Lls & LAs & Hl & HAr).
  pose proof (eq_trans (eq_sym EM) EM') as Q. injection Q as <- <-. clear EM'.
  destruct (C44_normals2 m G D) as (ns' & EN' & Lns & Hn). pose proof (eq_trans (eq_sym EN) EN') as Q. injection Q as <-. clear EN'.
  destruct (HAr i c fs es A Hc HR HF HA) as [EA _].
  (* per face *)
  assert (HE : forall f e, In f fs -> edge_points m f (fst e) (snd e) ->
    length (fst e) = 2%nat /\ length (snd e) = 2%nat /\
    nth (N.to_nat f) ls 0 = dist (fst e) (snd e) /\ length (nth (N.to_nat f) ns []) = 2%nat /\
    sprod (nth (N.to_nat f) ns []) (fst e) = sprod (nth (N.to_nat f) ns []) (snd e) /\
    (forall p, length p = 2%nat -> (sprod (nth (N.to_nat f) ns []) (fst e) - sprod (nth (N.to_nat f) ns []) p) * dist (fst e) (snd e) = area2 p (fst e) (snd e)) /\
    (s f = 1 /\ 0 < area2 c (fst e) (snd e) \/ s f = -1 /\ area2 c (fst e) (snd e) < 0)).
  { intros f [a b] Hf Hab. cbn [fst snd] in *. destruct (edge_points_length _ _ _ _ G Hab) as [La Lb]. rewrite D in La, Lb.
    assert (Hlt : (N.to_nat f < length (m_faces m))%nat) by (pose proof (ring_lt _ _ _ _ HR Hf); lia).
    destruct (Hs f a b Hf Hab) as [Hne Hsf].
    destruct (nth_error ls (N.to_nat f)) as [l|] eqn:El; [|apply nth_error_None in El; lia].
    destruct (nth_error ns (N.to_nat f)) as [n|] eqn:En; [|apply nth_error_None in En; lia].
    rewrite (nth_error_nth _ _ _ El). rewrite (nth_error_nth _ _ _ En) in *.
    destruct (Hn f a b n Hab En Hne) as (Ln & Hu & Ho & Hp). splits; auto.
    - apply (Hl f a b l Hab El).
    - intros p Lp. apply (Hp p Lp).
    - destruct (Hp c Lc) as [H1 H2]. destruct Hsf as [[-> Hlt']|[-> Hlt']]; [left|right]; split; try reflexivity.
      + apply H2. assumption.
      + rewrite <- H1. pose proof (dist_pos a b ltac:(congruence) Hne) as Hd.
        replace 0 with (0 * dist a b) by ring. apply Rmult_lt_compat_r; lra. }
  assert (Hnz : forall e, In e es -> area2 c (fst e) (snd e) <> 0).
  { intros e He. destruct (Forall2_In_r _ _ _ _ HF He) as (f & Hf & Hfe). destruct (HE f e Hf Hfe) as (_ & _ & _ & _ & _ & _ & [[_ H]|[_ H]]); lra. }
  assert (Hflux : forall w, length w = 2%nat -> Rsum (map (fun f => s f * nth (N.to_nat f) ls 0 * sprod (nth (N.to_nat f) ns []) w) fs) = 0).
  { intros w Lw.
    assert (Ht : exists t : R, (forall e, In e (cycle_edges vs) -> 0 <= t * area2 c (fst e) (snd e)) /\ (t = 1 \/ t = -1)).
    { destruct Hor as [H|H]; [exists 1|exists (-1)]; (split; [intros e He; specialize (H e He); lra|lra]). }
    destruct Ht as (t & Ht & Ht1).
    rewrite (Rsum_Forall2 _ (fun e => (if Rlt_dec 0 (area2 c (fst e) (snd e)) then 1 else -1) * edge_flux w e) _ _ _ HF).
    - rewrite (traces_signed (fun e => t * edge_flux w e) _ es (cycle_edges vs)).
      + rewrite Rsum_scale, cycle_flux. ring.
      + intros e. rewrite edge_flux_rev. ring.
      + exact HT.
      + intros e d He Hd Hed. specialize (Ht d Hd). pose proof (Hnz e He) as Hz.
        destruct Hed as [-> | ->].
        * destruct (Rlt_dec 0 (area2 c (fst e) (snd e))) as [Hp|Hp]; destruct Ht1 as [-> | ->]; try reflexivity; exfalso; lra.
        * unfold rev_edge in Ht. cbn [fst snd] in Ht. rewrite area2_rev in Ht. rewrite edge_flux_rev.
          destruct (Rlt_dec 0 (area2 c (fst e) (snd e))) as [Hp|Hp]; destruct Ht1 as [-> | ->]; try ring; exfalso; lra.
    - intros f e Hf He Hfe. destruct (HE f e Hf Hfe) as (La & Lb & -> & Ln & Ho & Hp & Hsf). destruct e as [a b]. cbn [fst snd] in *.
      rewrite Rmult_assoc, (normal_flux _ a b w Ln La Lb Lw Hp).
      destruct (Rlt_dec 0 (area2 c a b)) as [H|H]; destruct Hsf as [[-> H']|[-> H']]; try reflexivity; exfalso; lra. }
  split; [exact Hflux|].
  pose proof (Hflux c Lc) as H0.
  assert (E : Rsum (map (fun f => s f * nth (N.to_nat f) ls 0 * sprod (nth (N.to_nat f) ns []) (P f) -
                                  s f * nth (N.to_nat f) ls 0 * sprod (nth (N.to_nat f) ns []) c) fs) = 2 * A).
  { rewrite EA, <- Rsum_scale.
    apply (Rsum_Forall2 _ _ _ _ _ HF). intros f e Hf He Hfe. pose proof (HP f Hf _ _ Hfe) as HPf.
    destruct (HE f e Hf Hfe) as (La & Lb & -> & Ln & Ho & Hp & Hsf).
    assert (EP : sprod (nth (N.to_nat f) ns []) (P f) = sprod (nth (N.to_nat f) ns []) (fst e)).
    { destruct HPf as [-> |[-> |[LP Hm]]]; [reflexivity|symmetry; exact Ho|].
      revert Ho Ln Hm LP La Lb. generalize (nth (N.to_nat f) ns []), (P f), (fst e), (snd e). clear.
      intros n p a b Ho Ln Hm Lp La Lb. pose proof (Hm 0%nat ltac:(lia)) as H0. pose proof (Hm 1%nat ltac:(lia)) as H1.
      destruct n as [|n0 [|n1 [|? ?]]]; try discriminate Ln. destruct p as [|p0 [|p1 [|? ?]]]; try discriminate Lp.
      destruct a as [|a0 [|a1 [|? ?]]]; try discriminate La. destruct b as [|b0 [|b1 [|? ?]]]; try discriminate Lb.
      cbn [nth map Rsum length INR sprod] in *. subst p0 p1. simpl in *. lra. }
    rewrite EP. pose proof (Hp c Lc) as Hpc.
    destruct Hsf as [[-> H']|[-> H']].
    - rewrite Rabs_right by lra. rewrite <- Hpc. field.
    - rewrite Rabs_left by lra. rewrite <- Hpc. field. }
  rewrite Rsum_minus in E. lra.
Qed.
Print Assumptions C74_gauss2.

Lemma ring_sides {V} (m : Mesh V) c fs f : ring m c fs -> In f fs ->
  exists face, nth_error (m_faces m) (N.to_nat f) = Some face /\ (cellLeft (bc (f_conn face)) = c \/ cellRight (bc (f_conn face)) = c).
Proof.
  intros (f0 & r & -> & _ & Hc & _) Hf.
  assert (Hs : exists g, succ_face m c f g).
  { clear -Hc Hf. revert Hc Hf. generalize f0 at 1 as g0. generalize (f0 :: r) as l. induction l as [|a [|b l] IH]; intros g0 Hc Hf.
    - contradiction.
    - destruct Hf as [<-|[]]. eexists; exact Hc.
    - destruct Hc as [H1 H2]. destruct Hf as [<-|Hf]; [eauto|]. eapply IH; eassumption. }
  destruct Hs as (g & face & Hface & Hg). exists face. split; [assumption|].
  unfold getNextBElem in Hg. destruct (N.eqb c INVALID); [discriminate|].
  destruct (N.eqb_spec c (cellRight (bc (f_conn face)))); [auto|].
  destruct (N.eqb_spec c (cellLeft (bc (f_conn face)))); [auto|discriminate].
Qed.

(** C74. If every edge runs counterclockwise around its left cell (as the VTK reader creates them for counterclockwise cells), the
    normals point from the left to the right cell: the sign of an edge in a cell is +1 for the left, -1 for the right cell. *)
Theorem C74_left_to_right : forall m cc ns, geo_mesh m -> m_dim m = 2%nat -> computeNormals2 (K := numR) m = Ok ns -> edges_ccw_left m cc ->
  forall i c fs f a b, nth_error cc (N.to_nat i) = Some c -> length c = 2%nat -> ring m i fs -> In f fs -> edge_points m f a b ->
    a <> b /\ (side_sign m f i = 1 /\ sprod (nth (N.to_nat f) ns []) c < sprod (nth (N.to_nat f) ns []) a \/
               side_sign m f i = -1 /\ sprod (nth (N.to_nat f) ns []) a < sprod (nth (N.to_nat f) ns []) c).
Proof.
  intros m cc ns G D EN HO i c fs f a b Hc Lc HR Hf Hab.
  destruct (C44_normals2 m G D) as (ns' & EN' & Lns & Hn). pose proof (eq_trans (eq_sym EN) EN') as Q. injection Q as <-. clear EN'.
  destruct (ring_sides m i fs f HR Hf) as (face & Hface & Hi).
  destruct (HO f face a b Hface Hab) as (Hne & HL & HRt). split; [assumption|].
  destruct (nth_error ns (N.to_nat f)) as [n|] eqn:En.
  2:{ apply nth_error_None in En. assert (N.to_nat f < length (m_faces m))%nat by (apply nth_error_Some; congruence). lia. }
  rewrite (nth_error_nth _ _ _ En). destruct (Hn f a b n Hab En Hne) as (Ln & Hu & Ho & Hp). destruct (Hp c Lc) as [Hp1 Hp2].
  pose proof (edge_points_length _ _ _ _ G Hab) as [La Lb].
  pose proof (dist_pos a b ltac:(congruence) Hne) as Hd.
  unfold side_sign. rewrite Hface.
  destruct (N.eqb_spec (cellLeft (bc (f_conn face))) i) as [EL|NL].
  - assert (Hpos : 0 < area2 c a b) by (apply HL; rewrite EL; exact Hc).
    destruct (N.eqb_spec (cellRight (bc (f_conn face))) i) as [ER|NR].
    + exfalso. assert (area2 c a b < 0) by (apply HRt; rewrite ER; exact Hc). lra.
    + left. split; [ring|]. apply Hp2. assumption.
  - destruct Hi as [Hi|Hi]; [contradiction|]. rewrite Hi, N.eqb_refl. right. split; [ring|].
    assert (Hneg : area2 c a b < 0) by (apply HRt; rewrite Hi; exact Hc). rewrite <- Hp1 in Hneg.
    destruct (Rle_or_lt (sprod n c) (sprod n a)) as [Hle|]; [|assumption]. exfalso.
    assert (0 * dist a b <= (sprod n a - sprod n c) * dist a b) by (apply Rmult_le_compat_r; lra). lra.
Qed.
Print Assumptions C74_left_to_right.

(** C74. The whole mesh: the areas of all the cells add up to the boundary integral over the boundary edges alone,
    1/2 * sum of +-length * (normal . point of the edge). *)
Theorem C74_total_area : forall m cc ls As ns (P : N -> point), geo_mesh m -> m_dim m = 2%nat -> length cc = length (m_cells m) ->
  sides_match m -> edges_ccw_left m cc -> (forall i, (i < N.of_nat (length (m_cells m)))%N -> star_cell2 m cc i) ->
  (forall f, (f < N.of_nat (length (m_faces m)))%N -> on_edge m f (P f)) ->
  computeMeasures2 (K := numR) m cc = Ok (ls, As) -> computeNormals2 (K := numR) m = Ok ns ->
  2 * Rsum As = Rsum (map (fun f => boundary_sign m f * (nth (N.to_nat f) ls 0 * sprod (nth (N.to_nat f) ns []) (P f))) (seqN (length (m_faces m)))).
Proof.
  intros m cc ls As ns P G D Lcc M HO HS HP EM EN.
  assert (LA : length As = length (m_cells m)).
  { destruct (C45_measures2 m cc G D Lcc) as (ls' & As' & EM' & Lls & LAs & _). pose proof (eq_trans (eq_sym EM) EM') as Q. injection Q as <- <-. exact LAs. }
  assert (HR : exists rs, Forall2 (ring m) (seqN (length (m_cells m))) rs).
  { assert (Hlt : forall i, In i (seqN (length (m_cells m))) -> (i < N.of_nat (length (m_cells m)))%N) by (intros i; apply in_seqN).
    revert Hlt. generalize (seqN (length (m_cells m))) as l. induction l as [|i l IH]; intros Hlt; [exists []; constructor|].
    destruct IH as (rs & Hrs); [intros; apply Hlt; right; assumption|].
    destruct (wf_ring _ (geo_wf _ G) i (Hlt i (or_introl eq_refl))) as (fs & Hfs). exists (fs :: rs). constructor; assumption. }
  destruct HR as (rs & HR).
  rewrite <- (cells_flux m rs _ M HR).
  assert (Cell : forall i fs, (i < N.of_nat (length (m_cells m)))%N -> ring m i fs ->
    Rsum (map (fun f => side_sign m f i * (nth (N.to_nat f) ls 0 * sprod (nth (N.to_nat f) ns []) (P f))) fs) = 2 * nth (N.to_nat i) As 0).
  { intros i fs Hi Hring. destruct (HS i Hi) as (c & fs' & es & vs & Hc & Lc & Hring' & HF & HT & Hor).
    pose proof (ring_det m i fs fs' Hring Hring') as <-.
    destruct (nth_error As (N.to_nat i)) as [A|] eqn:EA; [|apply nth_error_None in EA; lia].
    rewrite (nth_error_nth _ _ _ EA).
    destruct (C74_gauss2 m cc ls As ns G D Lcc EM EN i c fs es vs A (fun f => side_sign m f i) P Hc Lc Hring HF HT Hor) as [_ E].
    - intros f a b Hf Hab. apply (C74_left_to_right m cc ns G D EN HO i c fs f a b Hc Lc Hring Hf Hab).
    - intros f Hf. apply HP. eapply ring_lt; eassumption.
    - exact EA.
    - rewrite <- E. apply Rsum_ext. intros f _. ring. }
  assert (Hlt : forall i, In i (seqN (length (m_cells m))) -> (i < N.of_nat (length (m_cells m)))%N) by (intros i; apply in_seqN).
  assert (EAs : 2 * Rsum As = Rsum (map (fun i => 2 * nth (N.to_nat i) As 0) (seqN (length (m_cells m))))).
  { rewrite (tab_map As 0) at 1. rewrite <- Rsum_scale, LA. reflexivity. }
  rewrite EAs. clear EAs HS. induction HR as [|i fs is rs Hr HF IH]; [reflexivity|]. cbn [combine map Rsum fst snd].
  rewrite (Cell i fs (Hlt i (or_introl eq_refl)) Hr). f_equal. apply IH. intros; apply Hlt; right; assumption.
Qed.
Print Assumptions C74_total_area.

(** * Non-vacuity: the unit square cut into two triangles, edges running counterclockwise around their left cell. *)
Definition ccwTriangles : Mesh (Z * Z) :=
  mkMesh 2 [(0,0);(1,0);(0,1);(1,1)]%Z []
    [mkF [0;1] [(1,0)]; mkF [1;2] [(2,0);(3,1)]; mkF [2;0] [(0,0)]; mkF [1;3] [(4,1)]; mkF [3;2] [(1,1)]]%N
    [0; 1]%N [].
Definition ccwR : Mesh point := with_points pt2 ccwTriangles.
Definition ccwC : list point := [[1/3; 1/3]; [2/3; 2/3]].
Lemma ccwR_geo : geo_mesh ccwR.
Proof.
  constructor.
  - apply wf_meshb_sound. apply (with_points_wf pt2 ccwTriangles). vm_compute. reflexivity.
  - simpl. intros p H. repeat destruct H as [<-|H]; try reflexivity. destruct H.
Qed.
Lemma nth_error_INVALID {A} (l : list A) : (length l < 10)%nat -> nth_error l (N.to_nat INVALID) = None.
Proof. intros H. apply nth_error_None. assert (10 <= INVALID)%N by (clear; intros H; vm_compute in H; discriminate). lia. Qed.
Example C74_instance : geo_mesh ccwR /\ m_dim ccwR = 2%nat /\ length ccwC = length (m_cells ccwR) /\ sides_match ccwR /\
  edges_ccw_left ccwR ccwC /\ (forall i, (i < N.of_nat (length (m_cells ccwR)))%N -> star_cell2 ccwR ccwC i) /\
  exists ls As ns, computeMeasures2 (K := numR) ccwR ccwC = Ok (ls, As) /\ computeNormals2 (K := numR) ccwR = Ok ns /\ Rsum As = 1.
Proof.
  pose proof ccwR_geo as G.
  assert (HS : forall i, (i < N.of_nat (length (m_cells ccwR)))%N -> star_cell2 ccwR ccwC i).
  { intros i Hi. change (length (m_cells ccwR)) with 2%nat in Hi. assert (i = 0 \/ i = 1)%N as [-> | ->] by lia.
    - exists [1/3; 1/3], [0;1;2]%N, [([0;0],[1;0]); ([1;0],[0;1]); ([0;1],[0;0])], [[0;0];[1;0];[0;1]]. splits.
      + reflexivity.
      + reflexivity.
      + apply ring_iff. vm_compute. reflexivity.
      + repeat constructor; eexists _, _; splits; reflexivity.
      + exists [([0;0],[1;0]); ([1;0],[0;1]); ([0;1],[0;0])]. split; [apply Permutation_refl|].
        repeat (apply Forall2_cons; [first [left; reflexivity|right; reflexivity]|]); apply Forall2_nil.
      + left. intros e H. simpl in H. repeat destruct H as [<-|H]; try (unfold area2, det2, px, py; simpl; lra).
    - exists [2/3; 2/3], [1;3;4]%N, [([1;0],[0;1]); ([1;0],[1;1]); ([1;1],[0;1])], [[0;1];[1;0];[1;1]]. splits.
      + reflexivity.
      + reflexivity.
      + apply ring_iff. vm_compute. reflexivity.
      + repeat constructor; eexists _, _; splits; reflexivity.
      + exists [([0;1],[1;0]); ([1;0],[1;1]); ([1;1],[0;1])]. split; [apply Permutation_refl|].
        repeat (apply Forall2_cons; [first [left; reflexivity|right; reflexivity]|]); apply Forall2_nil.
      + left. intros e H. simpl in H. repeat destruct H as [<-|H]; try (unfold area2, det2, px, py; simpl; lra). }
  assert (HO : edges_ccw_left ccwR ccwC).
  { assert (T : map (fun fc => (cellLeft (bc (f_conn fc)), cellRight (bc (f_conn fc)))) (m_faces ccwR) =
      [(0, INVALID); (0, 1); (0, INVALID); (1, INVALID); (1, INVALID)]%N) by (vm_compute; reflexivity).
    intros f face a b Hf Hab.
    assert (Hlt : (N.to_nat f < length (m_faces ccwR))%nat) by (apply nth_error_Some; congruence).
    change (length (m_faces ccwR)) with 5%nat in Hlt.
    pose proof (map_nth_error (fun fc => (cellLeft (bc (f_conn fc)), cellRight (bc (f_conn fc)))) _ _ Hf) as HT. rewrite T in HT. clear T.
    generalize dependent (cellLeft (bc (f_conn face))). intros L HT. generalize dependent (cellRight (bc (f_conn face))). intros R0 HT. clear Hf.
    pose proof (@nth_error_INVALID point ccwC ltac:(simpl; lia)) as HI. generalize dependent INVALID. intros inv HT HI.
    assert (f = 0 \/ f = 1 \/ f = 2 \/ f = 3 \/ f = 4)%N as E by lia. clear Hlt.
    destruct E as [->|[->|[->|[->| ->]]]]; injection HT as <- <-; destruct Hab as (i & j & Hs & Ha & Hb); vm_compute in Hs; injection Hs as <- <-;
      injection Ha as <-; injection Hb as <-;
      (split; [unfold pt2; simpl; intros Q; injection Q; intros; lra|]);
      (split; intros x Hx; [|try (rewrite HI in Hx; discriminate)]);
      injection Hx as <-; unfold area2, det2, px, py, pt2; simpl; lra. }
  splits; auto.
  - apply sides_match_check. vm_compute. reflexivity.
  - destruct (C45_measures2 ccwR ccwC G eq_refl eq_refl) as (ls & As & E & _ & LA & _ & HA).
    destruct (C44_normals2 ccwR G eq_refl) as (ns & En & _).
    exists ls, As, ns. split; [exact E|]. split; [exact En|].
    destruct As as [|A0 [|A1 [|? ?]]]; try discriminate LA.
    pose proof (proj1 (HA 0%N [1/3;1/3] [0;1;2]%N [([0;0],[1;0]); ([1;0],[0;1]); ([0;1],[0;0])] A0 eq_refl
      ltac:(apply ring_iff; vm_compute; reflexivity) ltac:(repeat constructor; eexists _, _; splits; reflexivity) eq_refl)) as E0.
    pose proof (proj1 (HA 1%N [2/3;2/3] [1;3;4]%N [([1;0],[0;1]); ([1;0],[1;1]); ([1;1],[0;1])] A1 eq_refl
      ltac:(apply ring_iff; vm_compute; reflexivity) ltac:(repeat constructor; eexists _, _; splits; reflexivity) eq_refl)) as E1.
    unfold area2, det2, px, py in E0, E1. cbn [map Rsum fst snd nth] in *. rewrite E0, E1.
    repeat match goal with |- context [Rabs ?x] => first [rewrite (Rabs_right x) by lra | rewrite (Rabs_left x) by lra] end. lra.
Qed.

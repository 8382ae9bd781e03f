(** C75: the discrete Gauss theorem for spatial meshes. Areas, normals and volumes, computed by different functions of the
    library, fit together. Exact real arithmetic. *)
From Coq Require Import Reals Lra Permutation.
From Verif Require Import P_Base M_Conn M_Index M_Mesh M_Apply S_Mesh P_Apply M_Vec S_Vec P_Vec P_GS3 M_Geom S_Geom P_Geom P_Tri P_Normals S_Polygon P_Polygon
  P_Volume S_Flux P_Flux T_Flux Ex_Mesh Ex_Geom T_Normals T_Volume T_Gauss2.
Local Open Scope R_scope.

Lemma triple_split a b c w : length a = 3%nat -> length b = 3%nat -> length c = 3%nat ->
  triple (diff a c) (diff b c) w = triple a b w - (triple c b w - triple c a w).
Proof.
  intros La Lb Lc. destruct (len3 a La) as (a0 & a1 & a2 & ->). destruct (len3 b Lb) as (b0 & b1 & b2 & ->).
  destruct (len3 c Lc) as (c0 & c1 & c2 & ->). unfold triple, det3, px, py, pz. simpl. ring.
Qed.
Lemma triple_swap a b w : triple b a w = - triple a b w.
Proof. unfold triple, det3. ring. Qed.
(** The vector area of a closed surface vanishes. *)
Lemma surface_flux w (ps : list (point * list point)) : closed_surface (map snd ps) ->
  (forall p, In p ps -> length (fst p) = 3%nat /\ forall v, In v (snd p) -> length v = 3%nat) ->
  Rsum (map (fun p => Rsum (map (fun e => triple (diff (fst e) (fst p)) (diff (snd e) (fst p)) w) (cycle_edges (snd p)))) ps) = 0.
Proof.
  intros HC HL.
  pose proof (closed_antisym (fun e => triple (fst e) (snd e) w) (map snd ps) HC (fun e => triple_swap (fst e) (snd e) w)) as Q.
  rewrite Rsum_flat, map_map in Q. rewrite <- Q. apply Rsum_ext. intros p Hp. destruct (HL p Hp) as [Lc Lv].
  rewrite (Rsum_ext _ (fun e => triple (fst e) (snd e) w - (triple (fst p) (snd e) w - triple (fst p) (fst e) w))).
  - rewrite Rsum_minus. rewrite (cycle_telescope (fun q => triple (fst p) q w)). ring.
  - intros e He. apply cycle_edges_in in He as [H1 H2]. apply triple_split; auto.
Qed.
(** One planar face: s * area * (n . w) as a sum of triple products. *)
Lemma face_flux x c n (s t : R) vs w : length x = 3%nat -> length c = 3%nat -> length n = 3%nat -> length w = 3%nat ->
  (forall v, In v vs -> length v = 3%nat /\ sprod n v = sprod n c) -> sprod n n = 1 ->
  (s = 1 /\ sprod n x < sprod n c \/ s = -1 /\ sprod n c < sprod n x) -> (t = 1 \/ t = -1) ->
  (forall e, In e (cycle_edges vs) -> 0 <= t * vol6 x c (fst e) (snd e)) ->
  s * Rsum (map (fun e => tri_area c (fst e) (snd e)) (cycle_edges vs)) * sprod n w =
  t / 2 * Rsum (map (fun e => triple (diff (fst e) c) (diff (snd e) c) w) (cycle_edges vs)).
Proof.
  intros Lx Lc Ln Lw Hv Hu Hs Ht Hvol.
  rewrite (Rmult_comm s), Rmult_assoc, Rmult_comm, <- !Rsum_scale. apply Rsum_ext. intros e He.
  specialize (Hvol e He). apply cycle_edges_in in He as [Ha Hb]. destruct e as [a b]. cbn [fst snd] in *.
  destruct (Hv a Ha) as [La Na]. destruct (Hv b Hb) as [Lb Nb].
  assert (Z1 : sprod n (diff a c) = 0) by (rewrite sprod_diff_r by congruence; lra).
  assert (Z2 : sprod n (diff b c) = 0) by (rewrite sprod_diff_r by congruence; lra).
  rewrite vol6_triple in Hvol by assumption.
  rewrite (triple_plane (diff a c) (diff b c) (diff c x) n) in Hvol by (auto using d3len).
  rewrite (triple_plane (diff a c) (diff b c) w n) by (auto using d3len).
  rewrite (sprod_diff_r c x) in Hvol by congruence.
  unfold tri_area. cbv zeta. rewrite <- (triple_gram (diff a c) (diff b c) n) by (auto using d3len).
  set (T := triple (diff a c) (diff b c) n) in *. change (T * T) with (Rsqr T). rewrite sqrt_Rsqr_abs.
  assert (HT : Rabs T = s * t * T).
  { assert (Hst : 0 <= s * t * T).
    { destruct (Rle_or_lt 0 (s * t * T)) as [|Hn]; [assumption|exfalso].
      assert (Hd : 0 < s * (sprod n c - sprod n x)) by (destruct Hs as [[-> H]|[-> H]]; lra).
      pose proof (Rmult_lt_compat_r _ _ _ Hd Hn) as Q.
      replace (s * t * T * (s * (sprod n c - sprod n x))) with ((s * s) * (t * (T * (sprod n c - sprod n x)))) in Q by ring.
      assert (Es : s * s = 1) by (destruct Hs as [[-> _]|[-> _]]; lra). rewrite Es in Q. lra. }
    rewrite <- (Rabs_right (s * t * T)) by lra. rewrite !Rabs_mult.
    assert (As : Rabs s = 1) by (destruct Hs as [[-> _]|[-> _]]; [apply Rabs_R1|rewrite Rabs_left; lra]).
    assert (At : Rabs t = 1) by (destruct Ht as [-> | ->]; [apply Rabs_R1|rewrite Rabs_left; lra]).
    rewrite As, At. ring. }
  rewrite HT. assert (Es : s * s = 1) by (destruct Hs as [[-> _]|[-> _]]; lra).
  transitivity ((s * s) * (t / 2 * (T * sprod n w))); [field|]. rewrite Es. ring.
Qed.

Lemma regular_tri m cc fc : regular3 m cc fc -> forall f face e0 es a b c, nth_error (m_faces m) (N.to_nat f) = Some face ->
  f_subs face = e0 :: es -> edge_points m e0 a b -> nth_error fc (N.to_nat f) = Some c -> tri_area c a b <> 0.
Proof.
  intros RG f face e0 es a b c Hf Hs Hab Hc. destruct (r3_side _ _ _ RG face (nth_error_In _ _ Hf)) as (x & l & Hx).
  pose proof (r3_plane _ _ _ RG f face x l e0 es a b c Hf Hx Hs Hab Hc) as HV.
  pose proof (edge_points_length _ _ _ _ (r3_geo _ _ _ RG) Hab) as [La Lb]. rewrite (r3_dim _ _ _ RG) in La, Lb.
  assert (Lc : length c = 3%nat) by (apply (r3_fc _ _ _ RG); eapply nth_error_In; exact Hc).
  assert (Lx : length x = 3%nat).
  { destruct (side_center_cell _ _ _ _ Hx) as (i & _ & V1). apply (r3_cc _ _ _ RG). apply vat_ok in V1. eapply nth_error_In; eassumption. }
  destruct (gs3_outward c a b x Lc La Lb Lx HV) as (e0' & e1 & e2 & n0 & n1 & n2 & _ & _ & EA & _ & _ & P). rewrite <- EA. lra.
Qed.

(** C75. The measures and the normals of a regular spatial mesh are computed without failure. *)
Theorem C75_total : forall m cc fc, regular3 m cc fc ->
  exists ls Fs Vs ns, computeMeasures3 (K := numR) m cc fc = Ok (ls, Fs, Vs) /\ computeNormals3 (K := numR) m cc fc = Ok ns /\
    length Fs = length (m_faces m) /\ length ns = length (m_faces m) /\ length Vs = length (m_cells m).
Proof.
  intros m cc fc RG. pose proof RG as [G HN D [L1 Lcc] [L2 Lfc] Hne Hside Hpl].
  destruct (C49_measures3 m cc fc G HN D Lcc Lfc L1 L2 Hne (regular_tri m cc fc RG)) as (ls & Fs & Vs & EM & _ & LF & LV & _).
  destruct (C44_normals3 m cc fc G HN D Lcc Lfc L2 Hside) as (ns & EN & Ln & _).
  exists ls, Fs, Vs, ns. auto.
Qed.
Print Assumptions C75_total.

(** C75. One cell. [Fs], [Vs] are the computed areas and volumes, [ns] the computed normals; x is the centre of the cell i, a closed
    polyhedron star-shaped around x. With s f = 1 for the faces whose normal points out of the cell and s f = -1 for those
    whose normal points into it: the outward normals, weighted by the areas, add up to zero (the flux of every constant field w
    vanishes), and the flux of the identity field through the faces is three times the volume. *)
Theorem C75_gauss3 : forall m cc fc ls Fs Vs ns, regular3 m cc fc ->
  computeMeasures3 (K := numR) m cc fc = Ok (ls, Fs, Vs) -> computeNormals3 (K := numR) m cc fc = Ok ns ->
  forall i x fs V (s : N -> R), star_cell3 m cc fc i -> nth_error cc (N.to_nat i) = Some x -> ring m i fs ->
    (forall f, In f fs ->
       s f = 1 /\ sprod (nth (N.to_nat f) ns []) x < sprod (nth (N.to_nat f) ns []) (nth (N.to_nat f) fc []) \/
       s f = -1 /\ sprod (nth (N.to_nat f) ns []) (nth (N.to_nat f) fc []) < sprod (nth (N.to_nat f) ns []) x) ->
    nth_error Vs (N.to_nat i) = Some V ->
    (forall w, length w = 3%nat -> Rsum (map (fun f => s f * nth (N.to_nat f) Fs 0 * sprod (nth (N.to_nat f) ns []) w) fs) = 0) /\
    Rsum (map (fun f => s f * nth (N.to_nat f) Fs 0 * sprod (nth (N.to_nat f) ns []) (nth (N.to_nat f) fc [])) fs) = 3 * V.
Proof.
  intros m cc fc ls Fs Vs ns RG EM EN i x fs V s (x' & fs' & ps & Hx' & HR' & HP & HC & Hor) Hx HR Hs HV.
  assert (x' = x) by congruence. subst x'. clear Hx'. pose proof (ring_det m i fs fs' HR HR') as <-. clear HR'.
  pose proof RG as [G HN D [L1 Lcc] [L2 Lfc] Hne Hside Hpl].
  destruct (C49_measures3 m cc fc G HN D Lcc Lfc L1 L2 Hne (regular_tri m cc fc RG)) as (ls' & Fs' & Vs' & EM' & _ & LF & LV & _ & HFs & HVs).
  pose proof (eq_trans (eq_sym EM) EM') as Q. injection Q as <- <- <-. clear EM'.
  destruct (C44_normals3 m cc fc G HN D Lcc Lfc L2 Hside) as (ns' & EN' & Lns & Hn). pose proof (eq_trans (eq_sym EN) EN') as Q. injection Q as <-. clear EN'.
  assert (Lx : length x = 3%nat) by (apply Lcc; eapply nth_error_In; exact Hx).
  (* facts about one face *)
  assert (HE : forall f p, In f fs -> face_poly m fc f p ->
    length (fst p) = 3%nat /\ nth (N.to_nat f) fc [] = fst p /\ length (nth (N.to_nat f) ns []) = 3%nat /\
    sprod (nth (N.to_nat f) ns []) (nth (N.to_nat f) ns []) = 1 /\
    (forall v, In v (snd p) -> length v = 3%nat /\ sprod (nth (N.to_nat f) ns []) v = sprod (nth (N.to_nat f) ns []) (fst p)) /\
    nth (N.to_nat f) Fs 0 = Rsum (map (fun e => tri_area (fst p) (fst e) (snd e)) (cycle_edges (snd p))) /\
    (forall d, pyramid m fc Fs x f d -> d = Rabs (sprod (nth (N.to_nat f) ns []) x - sprod (nth (N.to_nat f) ns []) (fst p)) * nth (N.to_nat f) Fs 0 / 3)).
  { intros f p Hf HPf. pose proof (face_poly_len m fc f p G D HPf) as Lvs. destruct p as [c vs]. cbn [fst snd] in *.
    pose proof HPf as (Hc & Hcop & face & es & Hface & HEs & HTr). cbn [fst snd] in *.
    assert (Lc : length c = 3%nat) by (apply Lfc; eapply nth_error_In; exact Hc).
    assert (Hlt : (N.to_nat f < length (m_faces m))%nat) by (apply nth_error_Some; congruence).
    destruct (nth_error ns (N.to_nat f)) as [n|] eqn:En; [|apply nth_error_None in En; nr; lia].
    destruct (nth_error Fs (N.to_nat f)) as [F|] eqn:EF; [|apply nth_error_None in EF; nr; lia].
    assert (Wn : nth (N.to_nat f) ns [] = n) by (apply nth_error_nth; exact En).
    assert (WF : nth (N.to_nat f) Fs 0 = F) by (apply nth_error_nth; exact EF).
    assert (Wc : nth (N.to_nat f) fc [] = c) by (apply nth_error_nth; exact Hc).
    rewrite Wn, WF, Wc.
    assert (Hne' : exists e0 es0, f_subs face = e0 :: es0).
    { destruct (f_subs face) as [|e0 es0] eqn:Ef; [|eauto]. exfalso. apply (HN 2%nat f []); [lia| |reflexivity].
      unfold subs. rewrite D. simpl. apply vat_ok in Hface. rewrite Hface. simpl. rewrite Ef. reflexivity. }
    destruct Hne' as (e0 & es0 & Hes).
    destruct (Hside face (nth_error_In _ _ Hface)) as (y & l & Hy).
    destruct (edge_points_total m e0 G) as (a & b & Hab).
    { apply (face_subs_lt m f face G D Hface). rewrite Hes. left. reflexivity. }
    pose proof (Hpl f face y l e0 es0 a b c Hface Hy Hes Hab Hc) as HVy.
    destruct (Hn f face y l e0 es0 a b c n Hface Hy Hes Hab Hc HVy En) as (Ln & Hu & Ha & Hb & _ & Hcp).
    assert (Hab' : In (a, b) es).
    { rewrite Hes in HEs. destruct es as [|[a' b'] es]; [inversion HEs|]. apply Forall2_cons_iff in HEs as [Q _]. cbn [fst snd] in Q.
      destruct (edge_points_det _ _ _ _ _ _ Hab Q) as [-> ->]. left. reflexivity. }
    assert (Iab : In a vs /\ In b vs).
    { destruct (traces_out _ _ _ HTr Hab') as [H|H]; apply cycle_edges_in in H; simpl in *; tauto. }
    splits; auto.
    - intros v Hv. split; [auto|]. apply Hcp; [auto|]. destruct Hcop as (w & k & Lw & Hw & Hk). exists w, k. splits; auto.
      intros q [<-|[<-|[<-|[<-|[]]]]]; apply Hk; simpl; tauto.
    - rewrite (HFs f face c es F Hface Hc HEs EF). apply traces_sum; [|exact HTr].
      intros [u v]. unfold rev_edge, tri_area. cbn [fst snd]. f_equal. f_equal. rewrite (sprod_comm (diff v c) (diff u c)). ring.
    - intros d (face' & e0' & es' & a' & b' & c' & h & F' & Hf' & Hs' & Hab2 & Hc' & Hh & HF' & ->).
      assert (face' = face) by congruence. subst face'. assert (c' = c) by congruence. subst c'. assert (F' = F) by (pose proof (eq_trans (eq_sym EF) HF') as Q; injection Q; auto). subst F'.
      assert (e0' = e0) by congruence. subst e0'. destruct (edge_points_det _ _ _ _ _ _ Hab Hab2) as [<- <-].
      assert (h = Rabs (sprod n x - sprod n c)) as ->; [|reflexivity].
      pose proof (edge_points_length _ _ _ _ G Hab) as [La Lb]. rewrite D in La, Lb.
      apply (plane_dist_unique x c a b); auto.
      + apply (regular_tri m cc fc RG f face e0 es0 a b c); assumption.
      + exists n. splits; auto. }
  assert (Ht : exists t : R, (t = 1 \/ t = -1) /\ forall p e, In p ps -> In e (cycle_edges (snd p)) -> 0 <= t * vol6 x (fst p) (fst e) (snd e)).
  { destruct Hor as [H|H]; [exists 1|exists (-1)]; (split; [lra|]); intros p e Hp He; specialize (H p e Hp He); lra. }
  destruct Ht as (t & Ht1 & Ht).
  assert (Hflux : forall w, length w = 3%nat -> Rsum (map (fun f => s f * nth (N.to_nat f) Fs 0 * sprod (nth (N.to_nat f) ns []) w) fs) = 0).
  { intros w Lw.
    rewrite (Rsum_Forall2 _ (fun p => t / 2 * Rsum (map (fun e => triple (diff (fst e) (fst p)) (diff (snd e) (fst p)) w) (cycle_edges (snd p)))) _ _ _ HP).
    - rewrite Rsum_scale, surface_flux; [ring|exact HC|].
      intros p Hp. destruct (Forall2_In_r _ _ _ _ HP Hp) as (f & Hf & Hfp). destruct (HE f p Hf Hfp) as (A & _ & _ & _ & B & _).
      split; [exact A|]. intros v Hv. apply B. exact Hv.
    - intros f p Hf Hp Hfp. destruct (HE f p Hf Hfp) as (Lc & Ec & Ln & Hu & Hv & EF & _). rewrite EF.
      apply (face_flux x (fst p) _ (s f) t (snd p) w); auto. specialize (Hs f Hf). rewrite Ec in Hs. exact Hs. }
  split; [exact Hflux|].
  pose proof (Hflux x Lx) as H0.
  assert (E : Rsum (map (fun f => s f * nth (N.to_nat f) Fs 0 * sprod (nth (N.to_nat f) ns []) (nth (N.to_nat f) fc []) -
                                  s f * nth (N.to_nat f) Fs 0 * sprod (nth (N.to_nat f) ns []) x) fs) = 3 * V).
  { assert (HD : exists ds, Forall2 (pyramid m fc Fs x) fs ds).
    { assert (Hlt : forall f, In f fs -> (f < N.of_nat (length (m_faces m)))%N) by (intros f Hf; eapply ring_lt; eassumption).
      revert Hlt. generalize fs as gs. induction gs as [|f gs IH]; intros Hlt; [exists []; constructor|].
      destruct IH as (ds & Hds); [intros; apply Hlt; right; assumption|].
      destruct (pyramid_total m fc Fs x f G HN D Lx Lfc L2 LF (regular_tri m cc fc RG) (Hlt f (or_introl eq_refl))) as (d & Hd).
      exists (d :: ds). constructor; assumption. }
    destruct HD as (ds & HD). rewrite (HVs i x fs ds V Hx HR HD HV). rewrite <- (map_id ds) at 1. rewrite <- Rsum_scale.
    apply (Rsum_Forall2 _ _ _ _ _ HD). intros f d Hf Hd Hfd.
    assert (Hfp : exists p, In p ps /\ face_poly m fc f p).
    { clear -HP Hf. induction HP as [|f0 p0 fs ps H HP IH]; [destruct Hf|]. destruct Hf as [<-|Hf].
      - exists p0. split; [left; reflexivity|assumption].
      - destruct (IH Hf) as (p & A & B). exists p. split; [right; assumption|assumption]. }
    destruct Hfp as (p & Hp & Hfp). destruct (HE f p Hf Hfp) as (Lc & Ec & Ln & Hu & Hv & EF & Hpy). rewrite (Hpy d Hfd).
    specialize (Hs f Hf). rewrite Ec in *. destruct Hs as [[-> H]|[-> H]].
    - rewrite Rabs_left by lra. field.
    - rewrite Rabs_right by lra. field. }
  rewrite Rsum_minus in E. lra.
Qed.
Print Assumptions C75_gauss3.

Lemma vol6_side x c a b n : length x = 3%nat -> length c = 3%nat -> length a = 3%nat -> length b = 3%nat -> length n = 3%nat ->
  sprod n n = 1 -> sprod n a = sprod n c -> sprod n b = sprod n c ->
  vol6 x a b c = triple (diff a c) (diff b c) n * (sprod n c - sprod n x).
Proof.
  intros Lx Lc La Lb Ln Hu Ha Hb. replace (vol6 x a b c) with (vol6 x c a b) by (unfold vol6, det3; ring).
  rewrite vol6_triple by assumption. rewrite <- (sprod_diff_r c x) by congruence.
  apply triple_plane; auto using d3len; rewrite sprod_diff_r by congruence; lra.
Qed.

(** C75. If the centres of neighbouring cells lie on different sides of their common face, the computed normals point from the left
    to the right cell: the sign of a face in a cell is +1 for the left, -1 for the right cell. *)
Theorem C75_left_to_right : forall m cc fc ns, regular3 m cc fc -> centers_apart m cc fc -> (N.of_nat (length (m_cells m)) <= 2 ^ 63)%N ->
  computeNormals3 (K := numR) m cc fc = Ok ns ->
  forall i x fs f, nth_error cc (N.to_nat i) = Some x -> ring m i fs -> In f fs ->
    side_sign m f i = 1 /\ sprod (nth (N.to_nat f) ns []) x < sprod (nth (N.to_nat f) ns []) (nth (N.to_nat f) fc []) \/
    side_sign m f i = -1 /\ sprod (nth (N.to_nat f) ns []) (nth (N.to_nat f) fc []) < sprod (nth (N.to_nat f) ns []) x.
Proof.
  intros m cc fc ns RG HA Hsz EN i x fs f Hx HR Hf.
  pose proof RG as [G HN D [L1 Lcc] [L2 Lfc] Hne Hside Hpl].
  destruct (C44_normals3 m cc fc G HN D Lcc Lfc L2 Hside) as (ns' & EN' & Lns & Hn). pose proof (eq_trans (eq_sym EN) EN') as Q. injection Q as <-. clear EN'.
  assert (Lx : length x = 3%nat) by (apply Lcc; eapply nth_error_In; exact Hx).
  destruct (ring_sides m i fs f HR Hf) as (face & Hface & Hi).
  assert (Hlt : (N.to_nat f < length (m_faces m))%nat) by (apply nth_error_Some; congruence).
  assert (Hil : (i < 2 ^ 63)%N).
  { assert (N.to_nat i < length cc)%nat by (apply nth_error_Some; congruence). lia. }
  destruct (nth_error ns (N.to_nat f)) as [n|] eqn:En; [|apply nth_error_None in En; nr; lia].
  destruct (nth_error fc (N.to_nat f)) as [c|] eqn:Hc; [|apply nth_error_None in Hc; nr; lia].
  assert (Wn : nth (N.to_nat f) ns [] = n) by (apply nth_error_nth; exact En).
  assert (Wc : nth (N.to_nat f) fc [] = c) by (apply nth_error_nth; exact Hc). rewrite Wn, Wc.
  assert (Lc : length c = 3%nat) by (apply Lfc; eapply nth_error_In; exact Hc).
  assert (Hne' : exists e0 es0, f_subs face = e0 :: es0).
  { destruct (f_subs face) as [|e0 es0] eqn:Ef; [|eauto]. exfalso. apply (HN 2%nat f []); [lia| |reflexivity].
    unfold subs. rewrite D. simpl. apply vat_ok in Hface. rewrite Hface. simpl. rewrite Ef. reflexivity. }
  destruct Hne' as (e0 & es0 & Hes).
  destruct (edge_points_total m e0 G) as (a & b & Hab).
  { apply (face_subs_lt m f face G D Hface). rewrite Hes. left. reflexivity. }
  pose proof (edge_points_length _ _ _ _ G Hab) as [La Lb]. rewrite D in La, Lb.
  assert (Use : forall y l, side_center cc face y l ->
    length n = 3%nat /\ sprod n n = 1 /\ sprod n a = sprod n c /\ sprod n b = sprod n c /\ (if l then sprod n y < sprod n c else sprod n c < sprod n y)).
  { intros y l Hy. destruct (Hn f face y l e0 es0 a b c n Hface Hy Hes Hab Hc (Hpl f face y l e0 es0 a b c Hface Hy Hes Hab Hc) En)
      as (A1 & A2 & A3 & A4 & A5 & _). auto. }
  assert (HAp : forall xl xr, nth_error cc (N.to_nat (cellLeft (bc (f_conn face)))) = Some xl ->
      nth_error cc (N.to_nat (cellRight (bc (f_conn face)))) = Some xr -> vol6 xl a b c * vol6 xr a b c < 0).
  { intros xl xr. apply (HA f face e0 es0 a b c xl xr Hface Hes Hab Hc). }
  unfold side_sign. rewrite Hface.
  destruct (N.eqb_spec (cellLeft (bc (f_conn face))) i) as [EL|NL].
  - assert (Hsc : side_center cc face x true) by (simpl; rewrite EL; split; assumption).
    destruct (Use x true Hsc) as (_ & _ & _ & _ & Hlt').
    destruct (N.eqb_spec (cellRight (bc (f_conn face))) i) as [ER|NR].
    + exfalso. specialize (HAp x x). rewrite EL, ER in HAp. specialize (HAp Hx Hx). pose proof (Rle_0_sqr (vol6 x a b c)) as Q. unfold Rsqr in Q. lra.
    + left. split; [ring|exact Hlt'].
  - destruct Hi as [Hi|Hi]; [contradiction|]. rewrite Hi, N.eqb_refl. right. split; [ring|].
    destruct (Hside face (nth_error_In _ _ Hface)) as (y & l & Hy).
    destruct (Use y l Hy) as (Ln & Hu & Ha & Hb & Hd). destruct l.
    + destruct Hy as [_ Hy]. rewrite Hi in HAp. specialize (HAp y x Hy Hx).
      assert (Ly : length y = 3%nat) by (apply Lcc; eapply nth_error_In; exact Hy).
      rewrite (vol6_side y c a b n), (vol6_side x c a b n) in HAp by assumption.
      set (T := triple (diff a c) (diff b c) n) in *.
      destruct (Rle_or_lt (sprod n x) (sprod n c)) as [Hle|]; [exfalso|assumption].
      pose proof (Rle_0_sqr T) as HT. unfold Rsqr in HT.
      assert (0 <= (T * T) * ((sprod n c - sprod n y) * (sprod n c - sprod n x))).
      { apply Rmult_le_pos; [exact HT|]. apply Rmult_le_pos; lra. }
      lra.
    + destruct Hy as (_ & _ & Hy). rewrite Hi in Hy. assert (y = x) by congruence. subst y. exact Hd.
Qed.
Print Assumptions C75_left_to_right.

(** C75. The whole mesh: the volumes of all the cells add up to the boundary integral over the boundary faces alone,
    1/3 * sum of +-area * (normal . centre of the face). *)
Theorem C75_total_volume : forall m cc fc ls Fs Vs ns, regular3 m cc fc -> centers_apart m cc fc -> (N.of_nat (length (m_cells m)) <= 2 ^ 63)%N ->
  sides_match m -> (forall i, (i < N.of_nat (length (m_cells m)))%N -> star_cell3 m cc fc i) ->
  computeMeasures3 (K := numR) m cc fc = Ok (ls, Fs, Vs) -> computeNormals3 (K := numR) m cc fc = Ok ns ->
  3 * Rsum Vs = Rsum (map (fun f => boundary_sign m f * (nth (N.to_nat f) Fs 0 * sprod (nth (N.to_nat f) ns []) (nth (N.to_nat f) fc [])))
                          (seqN (length (m_faces m)))).
Proof.
  intros m cc fc ls Fs Vs ns RG HA Hsz M HS EM EN.
  pose proof RG as [G HN D [L1 Lcc] [L2 Lfc] Hne Hside Hpl].
  assert (LV : length Vs = length (m_cells m)).
  { destruct (C75_total m cc fc RG) as (ls' & Fs' & Vs' & ns' & EM' & _ & _ & _ & LV). pose proof (eq_trans (eq_sym EM) EM') as Q. injection Q as <- <- <-. exact LV. }
  assert (HR : exists rs, Forall2 (ring m) (seqN (length (m_cells m))) rs).
  { assert (Hlt : forall i, In i (seqN (length (m_cells m))) -> (i < N.of_nat (length (m_cells m)))%N) by (intros i; apply in_seqN).
    revert Hlt. generalize (seqN (length (m_cells m))) as l. induction l as [|i l IH]; intros Hlt; [exists []; constructor|].
    destruct IH as (rs & Hrs); [intros; apply Hlt; right; assumption|].
    destruct (wf_ring _ (geo_wf _ G) i (Hlt i (or_introl eq_refl))) as (fs & Hfs). exists (fs :: rs). constructor; assumption. }
  destruct HR as (rs & HR). rewrite <- (cells_flux m rs _ M HR).
  assert (Cell : forall i fs, (i < N.of_nat (length (m_cells m)))%N -> ring m i fs ->
    Rsum (map (fun f => side_sign m f i * (nth (N.to_nat f) Fs 0 * sprod (nth (N.to_nat f) ns []) (nth (N.to_nat f) fc []))) fs) = 3 * nth (N.to_nat i) Vs 0).
  { intros i fs Hi Hring. destruct (nth_error cc (N.to_nat i)) as [x|] eqn:Hx; [|apply nth_error_None in Hx; nr; lia].
    destruct (nth_error Vs (N.to_nat i)) as [V|] eqn:EV; [|apply nth_error_None in EV; nr; lia].
    assert (WV : nth (N.to_nat i) Vs 0 = V) by (apply nth_error_nth; exact EV). rewrite WV.
    destruct (C75_gauss3 m cc fc ls Fs Vs ns RG EM EN i x fs V (fun f => side_sign m f i) (HS i Hi) Hx Hring) as [_ E].
    - intros f Hf. apply (C75_left_to_right m cc fc ns RG HA Hsz EN i x fs f Hx Hring Hf).
    - exact EV.
    - rewrite <- E. apply Rsum_ext. intros f _. ring. }
  assert (Hlt : forall i, In i (seqN (length (m_cells m))) -> (i < N.of_nat (length (m_cells m)))%N) by (intros i; apply in_seqN).
  assert (EVs : 3 * Rsum Vs = Rsum (map (fun i => 3 * nth (N.to_nat i) Vs 0) (seqN (length (m_cells m))))).
  { pose proof (tab_map Vs 0) as Q. rewrite Q at 1. rewrite <- Rsum_scale, LV. reflexivity. }
  rewrite EVs. clear EVs HS. induction HR as [|i fs is rs Hr HF IH]; [reflexivity|]. cbn [combine map Rsum fst snd].
  rewrite (Cell i fs (Hlt i (or_introl eq_refl)) Hr). f_equal. apply IH. intros; apply Hlt; right; assumption.
Qed.
Print Assumptions C75_total_volume.

(** * Non-vacuity: two tetrahedra with a common face. *)
Definition twoTets : Mesh (Z * Z * Z) :=
  mkMesh 3 [(0,0,0);(1,0,0);(0,1,0);(0,0,1);(1,1,1)]%Z
    [[[0;1];[0;2];[0;3];[1;2];[2;3];[3;1];[4;1];[4;2];[4;3]]]%N
    [mkF [3;4;5] [(1,0);(4,1)]; mkF [1;4;2] [(2,0)]; mkF [0;2;5] [(3,0)]; mkF [0;3;1] [(0,0)];
     mkF [7;4;8] [(5,1)]; mkF [6;5;8] [(6,1)]; mkF [6;3;7] [(0,1)]]%N
    [0; 4]%N [].
Definition tetsR : Mesh point := with_points pt3 twoTets.
Definition tetsC : list point := [[/4; /4; /4]; [/2; /2; /2]].
Definition tetsF : list point := [[/3; /3; /3]; [0; /3; /3]; [/3; 0; /3]; [/3; /3; 0]; [/3; 2/3; 2/3]; [2/3; /3; 2/3]; [2/3; 2/3; /3]].
Definition tetsE : list (point * point) :=
  [([0;0;0],[1;0;0]); ([0;0;0],[0;1;0]); ([0;0;0],[0;0;1]); ([1;0;0],[0;1;0]); ([0;1;0],[0;0;1]); ([0;0;1],[1;0;0]);
   ([1;1;1],[1;0;0]); ([1;1;1],[0;1;0]); ([1;1;1],[0;0;1])].
Lemma tetsR_geo : geo_mesh tetsR /\ no_empty tetsR.
Proof.
  split; [constructor|].
  - apply wf_meshb_sound. apply (with_points_wf pt3 twoTets). vm_compute. reflexivity.
  - simpl. intros p H. repeat destruct H as [<-|H]; try reflexivity. destruct H.
  - apply no_empty_faces; reflexivity.
Qed.
Lemma tets_edge e a b : edge_points tetsR e a b -> nth_error tetsE (N.to_nat e) = Some (a, b).
Proof.
  intros (i & j & Hs & Hi & Hj). assert (Hlt : (N.to_nat e < 9)%nat).
  { unfold subs in Hs. cbn [m_dim tetsR with_points twoTets Nat.sub Nat.eqb m_mid nth] in Hs. apply vat_ok in Hs.
    apply (proj1 (nth_error_Some (nth 0 (m_mid twoTets) []) (N.to_nat e))). cbn [m_mid twoTets nth]. congruence. }
  assert (e = 0 \/ e = 1 \/ e = 2 \/ e = 3 \/ e = 4 \/ e = 5 \/ e = 6 \/ e = 7 \/ e = 8)%N as E by lia. clear Hlt.
  destruct E as [->|[->|[->|[->|[->|[->|[->|[->| ->]]]]]]]]; vm_compute in Hs; injection Hs as <- <-; injection Hi as <-; injection Hj as <-; reflexivity.
Qed.
Lemma tets_edge' e a b : nth_error tetsE e = Some (a, b) -> edge_points tetsR (N.of_nat e) a b.
Proof.
  intros H. do 9 (destruct e as [|e]; [injection H as <- <-; eexists _, _; splits; reflexivity|]). destruct e; discriminate H.
Qed.
Lemma tets_table f face : nth_error (m_faces tetsR) (N.to_nat f) = Some face ->
  nth_error [([3;4;5], 0, 1); ([1;4;2], 0, INVALID); ([0;2;5], 0, INVALID); ([0;3;1], 0, INVALID);
             ([7;4;8], 1, INVALID); ([6;5;8], 1, INVALID); ([6;3;7], 1, INVALID)]%N (N.to_nat f) =
  Some (f_subs face, cellLeft (bc (f_conn face)), cellRight (bc (f_conn face))) /\
  (f = 0 \/ f = 1 \/ f = 2 \/ f = 3 \/ f = 4 \/ f = 5 \/ f = 6)%N.
Proof.
  intros Hf. split.
  - pose proof (map_nth_error (fun fc => (f_subs fc, cellLeft (bc (f_conn fc)), cellRight (bc (f_conn fc)))) _ _ Hf) as HT.
    rewrite <- HT. f_equal.
  - assert (Hlt : (N.to_nat f < length (m_faces tetsR))%nat) by (apply nth_error_Some; congruence).
    change (length (m_faces tetsR)) with 7%nat in Hlt. lia.
Qed.
Ltac num_tac := unfold vol6, det3, px, py, pz; simpl; lra.
Lemma tets_regular : regular3 tetsR tetsC tetsF.
Proof.
  destruct tetsR_geo as [G HN]. constructor.
  - exact G.
  - exact HN.
  - reflexivity.
  - split; [reflexivity|]. intros p H. simpl in H. repeat destruct H as [<-|H]; try reflexivity; destruct H.
  - split; [reflexivity|]. intros p H. simpl in H. repeat destruct H as [<-|H]; try reflexivity; destruct H.
  - intros e a b H. apply tets_edge, nth_error_In in H. simpl in H.
    repeat (destruct H as [H|H]; [injection H as <- <-; intros Q; injection Q; intros; lra|]). destruct H.
  - intros face Hin. apply In_nth_error in Hin as (k & Hk). rewrite <- (Nat2N.id k) in Hk. destruct (tets_table _ _ Hk) as [T E].
    generalize dependent (N.of_nat k). intros f Hf T E. clear Hf.
    assert (L : cellLeft (bc (f_conn face)) = 0%N \/ cellLeft (bc (f_conn face)) = 1%N).
    { generalize dependent (cellRight (bc (f_conn face))). generalize INVALID. intros v r T.
      destruct E as [->|[->|[->|[->|[->|[->| ->]]]]]]; injection T; intros; subst; auto. }
    destruct L as [L|L]; [exists [/4; /4; /4], true|exists [/2; /2; /2], true]; simpl; rewrite L; split; reflexivity || lia.
  - intros f face x l e0 es a b c Hf Hx Hs Hab Hc.
    destruct (tets_table _ _ Hf) as [T E]. apply tets_edge in Hab.
    assert (L : (cellLeft (bc (f_conn face)) = 0 \/ cellLeft (bc (f_conn face)) = 1)%N).
    { generalize dependent (cellRight (bc (f_conn face))). generalize INVALID. intros v r T.
      destruct E as [->|[->|[->|[->|[->|[->| ->]]]]]]; injection T; intros; subst; auto. }
    assert (Hx' : nth_error tetsC (N.to_nat (cellLeft (bc (f_conn face)))) = Some x).
    { destruct l; [apply Hx|]. destruct Hx as [[Hx _] _]. exfalso. destruct L as [L|L]; rewrite L in Hx; lia. }
    clear Hx L Hf. rewrite Hs in T. generalize dependent (cellRight (bc (f_conn face))). generalize INVALID. intros v r T.
    destruct E as [->|[->|[->|[->|[->|[->| ->]]]]]]; injection T as <- <- EL ER; rewrite <- EL in Hx';
      injection Hx' as <-; injection Hab as <- <-; injection Hc as <-; num_tac.
Qed.

Lemma tets_poly f c vs face es : nth_error tetsF (N.to_nat f) = Some c -> nth_error (m_faces tetsR) (N.to_nat f) = Some face ->
  coplanar (c :: vs) -> map (fun e => nth_error tetsE (N.to_nat e)) (f_subs face) = map Some es -> traces es (cycle_edges vs) ->
  face_poly tetsR tetsF f (c, vs).
Proof.
  intros Hc Hf Hp He Ht. split; [exact Hc|]. split; [exact Hp|]. exists face, es. split; [exact Hf|]. split; [|exact Ht].
  clear -He. revert es He. generalize (f_subs face) as l. induction l as [|e l IH]; intros [|[a b] es] He; try discriminate He; constructor.
  - injection He as H _. apply tets_edge' in H. rewrite N2Nat.id in H. exact H.
  - apply IH. injection He as _ H. exact H.
Qed.
Ltac in_plane w k := exists w, k; splits; [reflexivity|simpl; lra|let p := fresh in let H := fresh in intros p H; simpl in H;
    repeat (destruct H as [<-|H]; [simpl; lra|]); destruct H].
Ltac trace_tac l := exists l; split; [cbn [cycle_edges path_edges app]; perm_tac|
    repeat (apply Forall2_cons; [first [left; reflexivity|right; reflexivity]|]); apply Forall2_nil].
Lemma tets_star i : (i < 2)%N -> star_cell3 tetsR tetsC tetsF i.
Proof.
  intros Hi. assert (i = 0 \/ i = 1)%N as [-> | ->] by lia.
  - exists [/4; /4; /4], [0;1;2;3]%N.
    exists [([/3; /3; /3], [[1;0;0]; [0;1;0]; [0;0;1]]); ([0; /3; /3], [[0;0;0]; [0;0;1]; [0;1;0]]);
            ([/3; 0; /3], [[0;0;0]; [1;0;0]; [0;0;1]]); ([/3; /3; 0], [[0;0;0]; [0;1;0]; [1;0;0]])]. splits.
    + reflexivity.
    + apply ring_iff. vm_compute. reflexivity.
    + repeat apply Forall2_cons; try apply Forall2_nil.
      * eapply (tets_poly 0) with (es := [([1;0;0],[0;1;0]); ([0;1;0],[0;0;1]); ([0;0;1],[1;0;0])]); [reflexivity|reflexivity|in_plane [1;1;1] 1|reflexivity|].
        trace_tac [([1;0;0],[0;1;0]); ([0;1;0],[0;0;1]); ([0;0;1],[1;0;0])].
      * eapply (tets_poly 1) with (es := [([0;0;0],[0;1;0]); ([0;1;0],[0;0;1]); ([0;0;0],[0;0;1])]); [reflexivity|reflexivity|in_plane [1;0;0] 0|reflexivity|].
        trace_tac [([0;1;0],[0;0;0]); ([0;0;1],[0;1;0]); ([0;0;0],[0;0;1])].
      * eapply (tets_poly 2) with (es := [([0;0;0],[1;0;0]); ([0;0;0],[0;0;1]); ([0;0;1],[1;0;0])]); [reflexivity|reflexivity|in_plane [0;1;0] 0|reflexivity|].
        trace_tac [([0;0;0],[1;0;0]); ([0;0;1],[0;0;0]); ([1;0;0],[0;0;1])].
      * eapply (tets_poly 3) with (es := [([0;0;0],[1;0;0]); ([1;0;0],[0;1;0]); ([0;0;0],[0;1;0])]); [reflexivity|reflexivity|in_plane [0;0;1] 0|reflexivity|].
        trace_tac [([1;0;0],[0;0;0]); ([0;1;0],[1;0;0]); ([0;0;0],[0;1;0])].
    + apply (tet_closed [0;0;0] [1;0;0] [0;1;0] [0;0;1]).
    + left. intros p e Hp He. simpl in Hp. repeat destruct Hp as [<-|Hp]; try destruct Hp; simpl in He; repeat destruct He as [<-|He]; try destruct He; num_tac.
  - exists [/2; /2; /2], [4;5;6;0]%N.
    exists [([/3; 2/3; 2/3], [[1;1;1]; [0;0;1]; [0;1;0]]); ([2/3; /3; 2/3], [[1;1;1]; [1;0;0]; [0;0;1]]);
            ([2/3; 2/3; /3], [[1;1;1]; [0;1;0]; [1;0;0]]); ([/3; /3; /3], [[1;0;0]; [0;1;0]; [0;0;1]])]. splits.
    + reflexivity.
    + apply ring_iff. vm_compute. reflexivity.
    + repeat apply Forall2_cons; try apply Forall2_nil.
      * eapply (tets_poly 4) with (es := [([1;1;1],[0;1;0]); ([0;1;0],[0;0;1]); ([1;1;1],[0;0;1])]); [reflexivity|reflexivity|in_plane [-1;1;1] 1|reflexivity|].
        trace_tac [([0;1;0],[1;1;1]); ([0;0;1],[0;1;0]); ([1;1;1],[0;0;1])].
      * eapply (tets_poly 5) with (es := [([1;1;1],[1;0;0]); ([0;0;1],[1;0;0]); ([1;1;1],[0;0;1])]); [reflexivity|reflexivity|in_plane [1;-1;1] 1|reflexivity|].
        trace_tac [([1;1;1],[1;0;0]); ([1;0;0],[0;0;1]); ([0;0;1],[1;1;1])].
      * eapply (tets_poly 6) with (es := [([1;1;1],[1;0;0]); ([1;0;0],[0;1;0]); ([1;1;1],[0;1;0])]); [reflexivity|reflexivity|in_plane [1;1;-1] 1|reflexivity|].
        trace_tac [([1;0;0],[1;1;1]); ([0;1;0],[1;0;0]); ([1;1;1],[0;1;0])].
      * eapply (tets_poly 0) with (es := [([1;0;0],[0;1;0]); ([0;1;0],[0;0;1]); ([0;0;1],[1;0;0])]); [reflexivity|reflexivity|in_plane [1;1;1] 1|reflexivity|].
        trace_tac [([1;0;0],[0;1;0]); ([0;1;0],[0;0;1]); ([0;0;1],[1;0;0])].
    + apply (closed_perm _ (tet_faces [1;1;1] [1;0;0] [0;1;0] [0;0;1])); [|apply tet_closed]. unfold tet_faces. cbn [map snd].
      apply Permutation_sym. apply (Permutation_cons_app [[[1;1;1]; [0;0;1]; [0;1;0]]; [[1;1;1]; [1;0;0]; [0;0;1]]; [[1;1;1]; [0;1;0]; [1;0;0]]] []). reflexivity.
    + right. intros p e Hp He. simpl in Hp. repeat destruct Hp as [<-|Hp]; try destruct Hp; simpl in He; repeat destruct He as [<-|He]; try destruct He; num_tac.
Qed.
Lemma tets_apart : centers_apart tetsR tetsC tetsF.
Proof.
  intros f face e0 es a b c xl xr Hf Hs Hab Hc Hl Hr. destruct (tets_table _ _ Hf) as [T E]. apply tets_edge in Hab. clear Hf. rewrite Hs in T.
  pose proof (@nth_error_INVALID point tetsC ltac:(simpl; lia)) as HI.
  generalize dependent (cellRight (bc (f_conn face))). generalize dependent INVALID. intros v HI r Hr T.
  destruct E as [->|[->|[->|[->|[->|[->| ->]]]]]]; injection T as <- <- EL ER; rewrite <- ER in Hr; try (rewrite HI in Hr; discriminate Hr).
  rewrite <- EL in Hl. injection Hl as <-. injection Hr as <-. injection Hab as <- <-. injection Hc as <-. num_tac.
Qed.
Example C75_instance : regular3 tetsR tetsC tetsF /\ centers_apart tetsR tetsC tetsF /\ sides_match tetsR /\
  (forall i, (i < N.of_nat (length (m_cells tetsR)))%N -> star_cell3 tetsR tetsC tetsF i) /\
  boundary_sign tetsR 0 = 0 /\ boundary_sign tetsR 6 = 1.
Proof.
  splits.
  - apply tets_regular.
  - apply tets_apart.
  - apply sides_match_check. vm_compute. reflexivity.
  - intros i Hi. apply tets_star. exact Hi.
  - unfold boundary_sign. simpl. lra.
  - unfold boundary_sign. simpl. lra.
Qed.

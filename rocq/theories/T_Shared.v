(** C104: mesh files in which a face belongs to more than two cells. *)
From Coq Require Import String Ascii QArith.
From Verif Require Import Base P_Base P_Poly P_FPMAWrite M_Conn S_Conn M_Mesh M_Connections S_Mesh M_Apply P_Apply M_Text M_Print M_Stream M_FPMA M_VTK M_FileText S_FileText S_FPMA S_VTK
  P_FPMA P_FileText P_VTKText P_Bnd P_VTK P_VTK3 S_Layout P_Layout T_FileText T_Layout T_FPMA T_VTK T_VTK3 Ex_Mesh M_Vec M_Geom T_Numbers S_Shared P_Shared.
Local Open Scope nat_scope.
Local Open Scope list_scope.

Lemma listing_In cells f c : In c (listing cells f) <-> exists fs, nth_error cells (N.to_nat c) = Some fs /\ In f fs.
Proof.
  unfold listing. rewrite filter_In, in_seqN, existsb_Neqb. split.
  - intros [H1 H2]. destruct (nth_error cells (N.to_nat c)) as [fs|] eqn:E; [|apply nth_error_None in E; lia]. exists fs. split; [reflexivity|].
    rewrite (nth_error_nth _ _ _ E) in H2. exact H2.
  - intros (fs & E & H). split; [assert (N.to_nat c < length cells) by (apply nth_error_Some; congruence); lia|]. rewrite (nth_error_nth _ _ _ E). exact H.
Qed.
Lemma listing_NoDup cells f : NoDup (listing cells f).
Proof. unfold listing. apply NoDup_filter. apply NoDup_seqN. Qed.
Lemma third_not_kept cells f : 2 < length (listing cells f) -> exists c fs, nth_error cells (N.to_nat c) = Some fs /\ In f fs /\ ~ keeps cells f c.
Proof.
  intros H. pose proof (listing_NoDup cells f) as ND. destruct (listing cells f) as [|a [|b [|c r]]] eqn:E; cbn [length] in H; try lia.
  assert (Hc : In c (listing cells f)) by (rewrite E; cbn [In]; auto). apply listing_In in Hc as (fs & Hfs & Hf). exists c, fs. split; [exact Hfs|]. split; [exact Hf|].
  unfold keeps. rewrite E. cbn [firstn In]. inversion ND as [|? ? N1 ND1]; subst. inversion ND1 as [|? ? N2 ND2]; subst. cbn [In] in N1, N2. intuition.
Qed.
Lemma kept cells f c : length (listing cells f) <= 2 -> (exists fs, nth_error cells (N.to_nat c) = Some fs /\ In f fs) -> keeps cells f c.
Proof. intros L H. unfold keeps. rewrite firstn_all2 by exact L. apply listing_In. exact H. Qed.

(** The walk along a list of faces one of which does not know the cell. *)
Section Walk.
Context {V : Type}.
Variable m : Mesh V.
Variable c : N.
Context {X : Type}.
Variable body : N -> outcome X.
Hypothesis total : forall f, exists x, body f = Ok x.
Definition leads (f g : N) : Prop := exists fc, nth_error (m_faces m) (N.to_nat f) = Some fc /\ getNextBElem (f_conn fc) c = Ok g.
Definition dead (f : N) : Prop := exists fc, nth_error (m_faces m) (N.to_nat f) = Some fc /\ getNextBElem (f_conn fc) c = Throw.
Lemma walk_dead fs : forall fuel f0 start, (forall f, In f (f0 :: fs) -> (f < N.of_nat (length (m_faces m)))%N) ->
  (forall f g, In (f, g) (combine (f0 :: fs) (fs ++ [start])) -> leads f g \/ dead f) ->
  (exists f, In f (f0 :: fs) /\ dead f) -> ~ In start fs -> length fs < fuel ->
  do_while fuel (ring_step m c body) start f0 = Throw.
Proof.
  induction fs as [|x fs IH]; intros fuel f0 start L H (f & Hf & D) NS HF; (destruct fuel as [|fuel]; [lia|]); cbn [do_while].
  - destruct Hf as [<-|[]]. destruct D as (fc & E & T). unfold ring_step. destruct (total f0) as (x & ->). cbn [bind]. rewrite (proj2 (vat_ok _ _ _) E). cbn [bind]. rewrite T. reflexivity.
  - destruct (total f0) as (y & Ey). destruct (H f0 x (or_introl eq_refl)) as [(fc & E & T)|(fc & E & T)]; unfold ring_step at 1; rewrite Ey; cbn [bind]; rewrite (proj2 (vat_ok _ _ _) E); cbn [bind]; rewrite T; cbn [bind fst snd]; [|reflexivity].
    assert (Q : (x =? start)%N = false) by (apply N.eqb_neq; intros ->; apply NS; left; reflexivity). rewrite Q.
    destruct Hf as [<-|Hf]; [destruct D as (fc' & E' & T'); rewrite E' in E; injection E as ->; rewrite T' in T; discriminate|].
    rewrite IH; [reflexivity| | | | |].
    + intros g Hg. apply L. right. exact Hg.
    + intros g h Hg. apply H. right. exact Hg.
    + exists f. auto.
    + intros Q'. apply NS. right. exact Q'.
    + cbn [length] in HF. lia.
Qed.
End Walk.

Lemma outer_dec l c : {outer (fun d => In d l) c} + {~ outer (fun d => In d l) c}.
Proof.
  destruct (forallb (fun d => (c <=? d)%N) l) eqn:E1.
  - left. left. intros d Hd. rewrite forallb_forall in E1. apply N.leb_le. apply E1. exact Hd.
  - destruct (forallb (fun d => (d <=? c)%N) l) eqn:E2.
    + left. right. intros d Hd. rewrite forallb_forall in E2. apply N.leb_le. apply E2. exact Hd.
    + right. intros [H|H].
      * assert (Q : forallb (fun d => (c <=? d)%N) l = true) by (apply forallb_forall; intros d Hd; apply N.leb_le; apply H; exact Hd). congruence.
      * assert (Q : forallb (fun d => (d <=? c)%N) l = true) by (apply forallb_forall; intros d Hd; apply N.leb_le; apply H; exact Hd). congruence.
Qed.
(** What the VTK readers leave. *)
Lemma shared_rings {V} (m : Mesh V) ess :
  m_cells m = map (fun es => hd INVALID es) ess -> (N.of_nat (length ess) <= INVALID)%N ->
  (forall es, In es ess -> es <> [] /\ NoDup es /\ forall e, In e es -> (e < flen (m_faces m))%N) ->
  (forall i, cn (m_faces m) i = vafter (calls_for i (all_calls 0 ess))) ->
  (forall c es, nth_error ess (N.to_nat c) = Some es -> (forall f, In f es -> outer (fun d => In d (listing ess f)) c) -> ring m c es) /\
  (forall c es f X (body : N -> outcome X), nth_error ess (N.to_nat c) = Some es -> In f es -> ~ outer (fun d => In d (listing ess f)) c ->
     (forall f, exists x, body f = Ok x) -> ring_walk m c body = Throw).
Proof.
  intros HM HL HE HC. assert (ND : forall fs, In fs ess -> NoDup fs) by (intros fs Hfs; apply HE; exact Hfs).
  assert (St : forall c es, nth_error ess (N.to_nat c) = Some es -> nth_error (m_cells m) (N.to_nat c) = Some (hd INVALID es)) by (intros c es H; rewrite HM, nth_error_map, H; reflexivity).
  assert (Fc : forall f, (f < flen (m_faces m))%N -> nth_error (m_faces m) (N.to_nat f) = Some (fat (m_faces m) f)) by (intros f Hf; apply vat_ok, vat_fat; exact Hf).
  split.
  - intros c es Hes HO. destruct (HE es) as (Hne & Hnd & Hlt); [eapply nth_error_In; eassumption|]. pose proof (St c es Hes) as H0.
    destruct es as [|f0 r]; [contradiction|]. exists f0, r. split; [reflexivity|]. split; [exact H0|]. split; [|exact Hnd].
    apply closed_chain_pairs; [discriminate|]. cbn [tl]. intros f g Hfg. assert (Hf : In f (f0 :: r)) by (apply in_combine_l in Hfg; exact Hfg).
    exists (fat (m_faces m) f). split; [apply Fc, Hlt, Hf|]. change (f_conn (fat (m_faces m) f)) with (cn (m_faces m) f). rewrite HC.
    apply (next_outer ess ND HL c f g (f0 :: r) Hes Hfg). apply HO. exact Hf.
  - intros c es f X body Hes Hf HO Tot. destruct (HE es) as (Hne & Hnd & Hlt); [eapply nth_error_In; eassumption|]. pose proof (St c es Hes) as H0.
    destruct es as [|f0 r]; [contradiction|]. unfold ring_walk. rewrite (proj2 (vat_ok _ _ _) H0). cbn [bind hd].
    apply (walk_dead m c body Tot r).
    + intros g Hg. apply Hlt. exact Hg.
    + intros g h Hgh. assert (Hg : In g (f0 :: r)) by (apply in_combine_l in Hgh; exact Hgh).
      destruct (outer_dec (listing ess g) c) as [Y|Y]; [left|right]; exists (fat (m_faces m) g); (split; [apply Fc, Hlt, Hg|]); change (f_conn (fat (m_faces m) g)) with (cn (m_faces m) g); rewrite HC.
      * apply (next_outer ess ND HL c g h (f0 :: r) Hes Hgh Y).
      * apply (next_inner ess ND HL c g (f0 :: r) Hes Hg Y).
    + exists f. split; [exact Hf|]. exists (fat (m_faces m) f). split; [apply Fc, Hlt, Hf|]. change (f_conn (fat (m_faces m) f)) with (cn (m_faces m) f). rewrite HC.
      apply (next_inner ess ND HL c f (f0 :: r) Hes Hf HO).
    + inversion Hnd; assumption.
    + assert (L : length (f0 :: r) <= length (m_faces m)).
      { assert (I : incl (f0 :: r) (seqN (length (m_faces m)))) by (intros g Hg; apply in_seqN; apply Hlt; exact Hg). apply (NoDup_incl_length Hnd) in I. unfold seqN in I. rewrite map_length, seq_length in I. exact I. }
      cbn [length] in L. lia.
Qed.
(** A cell whose walk throws has no boundary, and its mesh no centres. *)
Lemma no_walk {V} (m : Mesh V) c d : m_dim m = S (S d) -> (c < N.of_nat (length (m_cells m)))%N ->
  (forall X (body : N -> outcome X), (forall f, exists x, body f = Ok x) -> ring_walk m c body = Throw) ->
  (forall fs, ~ ring m c fs) /\ apply1 m (S (S d)) (S d) c = Throw.
Proof.
  intros D Hc T. split.
  - intros fs' Hr. apply P_Apply.ring_iff in Hr. rewrite (T N (fun f => Ok f)) in Hr; [discriminate|]. intros g. exists g. reflexivity.
  - unfold apply1. replace (S d <? S (S d)) with true by (symmetry; apply Nat.ltb_lt; lia). cbn [run]. replace (S (S d) - S d) with 1 by lia. cbn [run].
    rewrite D, Nat.eqb_refl. replace (S d =? S d) with true by (symmetry; apply Nat.eqb_refl).
    destruct d; cbn [Nat.sub Nat.eqb]; rewrite (T _ _); try reflexivity; intros g; eexists; reflexivity.
Qed.
Lemma no_centers {P} (m : Mesh P) c d : (d = 2 \/ d = 3) -> m_dim m = d -> (c < N.of_nat (length (m_cells m)))%N -> apply1 m d (d - 1) c = Throw ->
  forall (A : Num) (g : P -> vec A) tess r, computeCenters tess (with_coords g m) <> Ok r.
Proof.
  intros Hd D Hc A1 A g tess r H. unfold computeCenters in H. apply bind_ok in H as (e & _ & H). apply bind_ok in H as (l & H & _).
  change (m_dim (with_coords g m)) with (m_dim m) in H. rewrite D in H.
  assert (L : forall l3 l4, center_level d (with_coords g m) d l3 = Ok l4 -> False).
  { intros l3 l4 Q. unfold center_level in Q. assert (Hi : In c (seqN (n_elems (with_coords g m) d))).
    { apply in_seqN. unfold n_elems. cbn [with_coords m_dim m_cells]. rewrite D, Nat.eqb_refl. destruct Hd as [-> | ->]; exact Hc. }
    revert l4 Q. induction (seqN (n_elems (with_coords g m) d)) as [|x xs IH]; [destruct Hi|]. intros l4 Q. cbn [mapM] in Q. apply bind_ok in Q as (y & Hy & Q).
    destruct Hi as [->|Hi]; [|apply bind_ok in Q as (ys & Q & _); apply (IH Hi ys Q)].
    apply bind_ok in Hy as (cs & Hy & _). destruct Hd as [-> | ->]; [change (apply1 (with_coords g m) 2 (2 - 1) c) with (apply1 m 2 (2 - 1) c) in Hy|change (apply1 (with_coords g m) 3 (3 - 1) c) with (apply1 m 3 (3 - 1) c) in Hy]; rewrite A1 in Hy; discriminate. }
  destruct Hd as [-> | ->].
  - change (2 - 1) with 1 in H. cbn [center_levels] in H. change (m_dim (with_coords g m)) with (m_dim m) in H. rewrite D in H. cbn [Nat.eqb] in H. rewrite andb_false_r in H.
    apply bind_ok in H as (l2 & H & _). apply (L _ _ H).
  - change (3 - 1) with 2 in H. cbn [center_levels] in H.
    apply bind_ok in H as (l2 & _ & H). apply bind_ok in H as (r2 & H & _). apply bind_ok in H as (l3 & H & _).
    cbn [Nat.eqb] in H. rewrite andb_false_r in H. cbn [andb] in H. apply (L _ _ H).
Qed.
Lemma third_inner cells f : 2 < length (listing cells f) ->
  exists c fs, nth_error cells (N.to_nat c) = Some fs /\ In f fs /\ ~ outer (fun d => In d (listing cells f)) c.
Proof.
  intros H. pose proof (Sorted_listing cells f) as S. destruct (listing cells f) as [|a [|b [|c r]]] eqn:E; cbn [length] in H; try lia.
  assert (Hb : In b (listing cells f)) by (rewrite E; cbn [In]; auto). apply listing_In in Hb as (fs & Hfs & Hf). exists b, fs. split; [exact Hfs|]. split; [exact Hf|].
  inversion S as [|? ? S1 H1]; subst. inversion S1 as [|? ? S2 H2]; subst. rewrite Forall_forall in H1, H2.
  pose proof (H1 b (or_introl eq_refl)). pose proof (H2 c (or_introl eq_refl)).
  intros [O|O]; [specialize (O a (or_introl eq_refl))|specialize (O c (or_intror (or_intror (or_introl eq_refl))))]; lia.
Qed.
Lemma outer_iff (P Q : N -> Prop) c : (forall d, P d <-> Q d) -> outer P c <-> outer Q c.
Proof. intros H. split; (intros [O|O]; [left|right]; intros d Hd; apply O; apply H; exact Hd). Qed.

(** * FPMA files *)
(** The reader throws no exception. A cell that is among the first two that list each of its faces has its faces as boundary, in the order of the file. A cell that is not has no
    boundary: every walk around it throws an exception, and the centres of the mesh cannot be computed. Provided that the faces are polygons of existing
    vertices, the mesh is well formed exactly if no face belongs to more than two cells. *)
Theorem C104_fpma_shared : forall C (K : fp C) reserve (F : fpma_file C) ws s rest,
  file_cells F -> (reserve = 0 \/ forall p, In p (ff_polys F) -> length p <= reserve) ->
  words ws s rest -> Forall2 (shows K) ws (layout F) ->
  exists m, readFPMA K reserve s (emptyMesh 3) = Ok m /\ m_verts m = ff_verts F /\ length (m_cells m) = length (ff_cells F) /\ length (m_faces m) = length (ff_polys F) /\
    (forall c fs, nth_error (ff_cells F) (N.to_nat c) = Some fs -> (forall f, In f fs -> keeps (ff_cells F) f c) -> ring m c fs) /\
    (forall c fs f, nth_error (ff_cells F) (N.to_nat c) = Some fs -> In f fs -> ~ keeps (ff_cells F) f c ->
       (forall fs', ~ ring m c fs') /\ apply1 m 3 2 c = Throw /\
       forall (A : Num) (g : C * C * C -> vec A) tess r, computeCenters tess (with_coords g m) <> Ok r) /\
    ((forall p, In p (ff_polys F) -> polygon p /\ forall v, In v p -> (v < N.of_nat (length (ff_verts F)))%N) ->
       (wf_mesh m <-> forall f, length (listing (ff_cells F) f) <= 2)).
Proof.
  intros C K reserve F ws s rest [F1 F2 F3] HR HW HS.
  destruct (load_spec_gen reserve F [] F1 F2 F3 HR) as (m & edges & E & D & Ev & Em & _ & FF & Un & Cov & Lc & Ri & LR).
  pose proof E as E0. rewrite app_nil_r in E. exists m. split; [apply (layout_FPMA K rest reserve (layout F) ws s (emptyMesh 3) m HW HS E)|].
  assert (LF : length (m_faces m) = length (ff_polys F)) by exact (Forall2_length' _ _ _ FF).
  split; [exact Ev|]. split; [exact Lc|]. split; [exact LF|].
  assert (R : forall c fs, nth_error (ff_cells F) (N.to_nat c) = Some fs -> (forall f, In f fs -> keeps (ff_cells F) f c) -> ring m c fs).
  { intros c fs Hfs HK. destruct (F3 fs) as (Hne & Hnd & Hlt); [eapply nth_error_In; eassumption|]. destruct (Ri c fs Hfs) as [H0 HP].
    destruct fs as [|f0 r]; [contradiction|]. exists f0, r. split; [reflexivity|]. split; [exact H0|]. split; [|exact Hnd].
    apply closed_chain_pairs; [discriminate|]. cbn [tl]. intros f g Hfg. destruct (HP f g Hfg) as (fc & Hfc & HI & _). exists fc. split; [exact Hfc|]. apply HI.
    apply HK. apply in_combine_l in Hfg. exact Hfg. }
  split; [exact R|].
  assert (T : forall c fs f X (body : N -> outcome X), nth_error (ff_cells F) (N.to_nat c) = Some fs -> In f fs -> ~ keeps (ff_cells F) f c -> (forall f, exists x, body f = Ok x) -> ring_walk m c body = Throw).
  { intros c fs f X body Hfs Hf HK Tot. destruct (F3 fs) as (Hne & Hnd & Hlt); [eapply nth_error_In; eassumption|]. destruct (Ri c fs Hfs) as [H0 HP].
    destruct fs as [|f0 r]; [contradiction|]. unfold ring_walk. rewrite (proj2 (vat_ok _ _ _) H0). cbn [bind hd].
    apply (walk_dead m c body Tot r).
    - intros g Hg. rewrite LF. apply Hlt. exact Hg.
    - intros g h Hgh. destruct (HP g h Hgh) as (fc & Hfc & HI & HO). destruct (in_dec N.eq_dec c (firstn 2 (listing (ff_cells F) g))) as [Y|Y]; [left|right]; exists fc; auto.
    - exists f. split; [exact Hf|]. destruct (cyc_pairs_total f (f0 :: r) Hf) as (g & Hg & _). destruct (HP f g Hg) as (fc & Hfc & _ & HO). exists fc. auto.
    - inversion Hnd; assumption.
    - assert (L : length (f0 :: r) <= length (m_faces m)).
      { rewrite LF. assert (I : incl (f0 :: r) (seqN (length (ff_polys F)))) by (intros g Hg; apply in_seqN; apply Hlt; exact Hg). apply (NoDup_incl_length Hnd) in I. unfold seqN in I. rewrite map_length, seq_length in I. exact I. }
      cbn [length] in L. lia. }
  split.
  - intros c fs f Hfs Hf HK. assert (Hc : (c < N.of_nat (length (m_cells m)))%N) by (rewrite Lc; assert (N.to_nat c < length (ff_cells F)) by (apply nth_error_Some; congruence); lia).
    destruct (no_walk m c 1 D Hc) as [Q1 Q2]; [intros X body Tot; apply (T c fs f X body Hfs Hf HK Tot)|].
    split; [exact Q1|]. split; [exact Q2|]. apply (no_centers m c 3); auto.
  - intros HP. split.
    + intros W f. apply Nat.le_ngt. intros L. destruct (third_not_kept _ _ L) as (c & fs & Hfs & Hf & NK).
      destruct (wf_ring _ W c) as (fs' & Hr). { rewrite Lc. assert (N.to_nat c < length (ff_cells F)) by (apply nth_error_Some; congruence). lia. }
      apply P_Apply.ring_iff in Hr. rewrite (T c fs f N (fun f => Ok f) Hfs Hf NK) in Hr; [discriminate|]. intros g. exists g. reflexivity.
    + intros L. destruct (C20_fpma_wf C reserve F [] (Build_file_ok _ F F1 F2 F3 L) HP HR) as (m2 & E2 & W). rewrite E0 in E2. injection E2 as ->. exact W.
Qed.
Print Assumptions C104_fpma_shared.

(** * Planar VTK files *)
Lemma sinv2_sides {C} (F : vtk_file C) {V} (m : Mesh V) ess em :
  SInv key2 (map pairs_items (vf_cells F)) ess (m_faces m) em ->
  Forall2 (sides_of (edges2 m)) ess (vf_cells F) /\
  (forall e e' a b, joins (edges2 m) e a b -> joins (edges2 m) e' a b -> e = e').
Proof.
  intros I. pose proof I as [I1 I2 I3 I4 I5 I6].
  assert (Pair : forall e, (e < flen (m_faces m))%N -> exists x y, fsubs (m_faces m) e = [x; y]).
  { intros e He. destruct (I5 e He) as (c & items & _ & Hi & Hs). rewrite nth_error_map in Hi.
    destruct (nth_error (vf_cells F) c) as [vs|]; [|discriminate]. injection Hi as <-.
    apply in_pairs_items in Hs as (i & a & b & E & _). eauto. }
  split.
  - rewrite Forall2_map_r in I2. eapply Forall2_mono; [|exact I2].
    intros es vs (_ & _ & K). apply P_Poly.sides_of_iff. unfold pairs_items in K. rewrite Forall2_map_r in K.
    eapply Forall2_mono; [|exact K]. intros e [a b] [K1 K2]. cbn [fst snd] in *.
    destruct (Pair e K1) as (x & y & E). unfold joins. rewrite fsubs_edges2 by assumption.
    rewrite E in *. apply key2_iff in K2 as [[-> ->]|[-> ->]]; auto.
  - intros e e' a b J J'.
    assert (L : (forall x u v, joins (edges2 m) x u v -> x < flen (m_faces m))%N).
    { intros x u v K. apply P_Poly.joins_lt in K. unfold edges2 in K. rewrite map_length in K. unfold flen. lia. }
    assert (K : (forall x, joins (edges2 m) x a b -> key2 (fsubs (m_faces m) x) = key2 [a; b])%N).
    { intros x [H|H]; pose proof H as H'; rewrite fsubs_edges2 in H by (eapply L; [left; exact H'] || (eapply L; right; exact H'));
        injection H as ->; apply key2_iff; auto. }
    eapply fm_inv_uniq; [exact I1|eapply L; eassumption|eapply L; eassumption|].
    rewrite (K e J), (K e' J'). reflexivity.
Qed.
Lemma sides_has_side edges es vs a b : sides_of edges es vs -> (has_side vs a b <-> exists e, In e es /\ joins edges e a b).
Proof.
  intros [L S]. split.
  - intros (i & H). assert (Hi : i < length es) by (rewrite L; destruct H as [[H _]|[H _]]; apply nth_error_Some; congruence).
    destruct (nth_error es i) as [e|] eqn:Ei; [|apply nth_error_None in Ei; lia]. exists e. split; [eapply nth_error_In; eassumption|].
    destruct H as [H|H]; [eapply S; eassumption|apply P_Poly.joins_sym; eapply S; eassumption].
  - intros (e & He & J). apply In_nth_error in He as [i Hi]. assert (i < length es) by (apply nth_error_Some; congruence).
    destruct (P_FPMAWrite.side_total vs i ltac:(lia)) as (x & y & Hs). exists i.
    destruct (P_Poly.joins_det _ _ _ _ _ _ J (S _ _ _ _ Hi Hs)) as [[-> ->]|[-> ->]]; auto.
Qed.
Lemma Forall2_nth_r {A B} (R : A -> B -> Prop) l k i y : Forall2 R l k -> nth_error k i = Some y -> exists x, nth_error l i = Some x /\ R x y.
Proof.
  intros H. revert i. induction H as [|a b l k HR _ IH]; intros [|i] E; cbn in *; try discriminate; [injection E as <-; eauto|apply IH; exact E].
Qed.
Lemma Forall2_nth_l {A B} (R : A -> B -> Prop) l k i x : Forall2 R l k -> nth_error l i = Some x -> exists y, nth_error k i = Some y /\ R x y.
Proof.
  intros H. revert i. induction H as [|a b l k HR _ IH]; intros [|i] E; cbn in *; try discriminate; [injection E as <-; eauto|apply IH; exact E].
Qed.
(** The reader throws no exception. The edges know the first and the last of the polygons at them. A polygon that is the first or the last at each of its sides has its
    sides as boundary, in order; a polygon that is neither at one of its sides has no boundary: every walk around it throws, and the centres of the mesh cannot be
    computed. The mesh is well formed exactly if no side belongs to more than two polygons (if their vertices exist). *)
Theorem C104_vtk2_shared : forall C (K : fp C) (F : vtk_file C) s (m0 : Mesh (C * C)) old,
  vtk_text K F s -> grid2_any F -> m_dim m0 = 2 -> m_mid m0 = [] ->
  exists m types ess, readVTK2 K s m0 old = Ok (m, types) /\ m_verts m = map fst (vf_pts F) /\ length (m_cells m) = length (vf_cells F) /\
    Forall2 (sides_of (edges2 m)) ess (vf_cells F) /\
    (forall e e' a b, joins (edges2 m) e a b -> joins (edges2 m) e' a b -> e = e') /\
    (forall c vs es, nth_error (vf_cells F) (N.to_nat c) = Some vs -> nth_error ess (N.to_nat c) = Some es ->
       (forall a b, has_side vs a b -> outer (at_side F a b) c) -> ring m c es) /\
    (forall c vs a b, nth_error (vf_cells F) (N.to_nat c) = Some vs -> has_side vs a b -> ~ outer (at_side F a b) c ->
       (forall es, ~ ring m c es) /\ apply1 m 2 1 c = Throw /\
       forall (A : Num) (g : C * C -> vec A) tess r, computeCenters tess (with_coords g m) <> Ok r) /\
    ((forall vs v, In vs (vf_cells F) -> In v vs -> (v < N.of_nat (length (vf_pts F)))%N) ->
       (wf_mesh m <-> forall a b l, NoDup l -> (forall c, In c l -> at_side F a b c) -> length l <= 2)).
Proof.
  intros C K F s m0 old TX G HD HM.
  assert (R : exists m types ess, readVTK2 K s m0 old = Ok (m, types) /\ m_dim m = 2 /\ m_verts m = map fst (vf_pts F) /\
    m_cells m = map (fun es => hd INVALID es) ess /\ exists em, SInv key2 (map pairs_items (vf_cells F)) ess (m_faces m) em).
  { destruct TX as (l1 & l2 & wn & wp & wc & wr & wt & wk & e1 & e2 & rest & s1 & s2 & s3 & -> & A1 & A2 & A3 & A4 & B1 & B2 & B3 & B4 & B5 & B6 & B7 & B8 & B9 & B10 & B11).
    destruct (load2_any F [] [] [] m0 old G (fun H => H) (fun H => H) HD HM) as (m & types & ess & E & D & M & B & V & Cs & Q & _).
    rewrite app_nil_r in E. exists m, types, ess.
    split; [apply (whole2 K F l1 l2 wn wp wc wr wt wk e1 e2 rest s1 s2 s3 (conj A1 A3) (conj A2 A4) B1 B2 B3 B4 B5 B6 B7 B8 B9 B10 B11 [] [] m0 old m types (fun H => H) (fun H => H) E)|auto]. }
  destruct R as (m & types & ess & E & D & V & Cs & em & I). pose proof I as [I1 I2 I3 I4 I5 I6]. destruct (sinv2_sides F m ess em I) as [S U].
  assert (LE : length ess = length (vf_cells F)) by exact (Forall2_length' _ _ _ S).
  assert (HE : forall es, In es ess -> es <> [] /\ NoDup es /\ forall e, In e es -> (e < flen (m_faces m))%N).
  { intros es Hes. destruct (P_Bnd.Forall2_In_l _ _ _ _ I2 Hes) as (items & Hi & A & B' & Q). split; [|split; [assumption|]].
    - intros ->. inversion Q. congruence.
    - intros e He. destruct (P_Bnd.Forall2_In_l _ _ _ _ Q He) as (it & _ & Q' & _). assumption. }
  destruct (shared_rings m ess Cs) as [R T]; [pose proof (ga2_cells _ G); lia|exact HE|exact I3|].
  assert (Lc : length (m_cells m) = length (vf_cells F)) by (rewrite Cs, map_length; exact LE).
  assert (At : forall f a b, joins (edges2 m) f a b -> forall d, In d (listing ess f) <-> at_side F a b d).
  { intros f a b J d. rewrite listing_In. unfold at_side. split.
    - intros (es & Hes & Hf). destruct (Forall2_nth_l _ _ _ _ _ S Hes) as (vs & Hvs & Sd). exists vs. split; [exact Hvs|]. apply (sides_has_side _ _ _ a b Sd). eauto.
    - intros (vs & Hvs & Hs). destruct (Forall2_nth_r _ _ _ _ _ S Hvs) as (es & Hes & Sd). exists es. split; [exact Hes|].
      destruct (proj1 (sides_has_side _ _ _ a b Sd) Hs) as (f' & Hf' & J'). rewrite (U f f' a b J J'). exact Hf'. }
  assert (Sd2 : forall es vs f, sides_of (edges2 m) es vs -> In f es -> exists a b, has_side vs a b /\ joins (edges2 m) f a b).
  { intros es vs f Sd Hf. destruct (T_Numbers.sides_pair _ _ _ _ Sd Hf) as (a & b & Q). exists a, b. assert (J : joins (edges2 m) f a b) by (left; exact Q). split; [|exact J].
    apply (sides_has_side _ _ _ a b Sd). eauto. }
  assert (In_ : forall c vs a b, nth_error (vf_cells F) (N.to_nat c) = Some vs -> has_side vs a b -> ~ outer (at_side F a b) c ->
    forall X (body : N -> outcome X), (forall f, exists x, body f = Ok x) -> ring_walk m c body = Throw).
  { intros c vs a b Hvs Hs HO X body Tot. destruct (Forall2_nth_r _ _ _ _ _ S Hvs) as (es & Hes & Sd).
    destruct (proj1 (sides_has_side _ _ _ a b Sd) Hs) as (f & Hf & J). apply (T c es f X body Hes Hf); [|exact Tot]. intros Q. apply HO. revert Q. apply outer_iff. intros d. symmetry. apply At. exact J. }
  exists m, types, ess. split; [exact E|]. split; [exact V|]. split; [exact Lc|]. split; [exact S|]. split; [exact U|]. split; [|split].
  - intros c vs es Hvs Hes HO. apply R; [exact Hes|]. intros f Hf. destruct (Forall2_nth_l _ _ _ _ _ S Hes) as (vs' & Hvs' & Sd). rewrite Hvs in Hvs'. injection Hvs' as <-.
    destruct (Sd2 es vs f Sd Hf) as (a & b & Hs & J). apply (outer_iff _ _ c (At f a b J)). apply HO. exact Hs.
  - intros c vs a b Hvs Hs HO. assert (Hc : (c < N.of_nat (length (m_cells m)))%N) by (rewrite Lc; assert (N.to_nat c < length (vf_cells F)) by (apply nth_error_Some; congruence); lia).
    destruct (no_walk m c 0 D Hc) as [Q1 Q2]; [intros X body Tot; apply (In_ c vs a b Hvs Hs HO X body Tot)|].
    split; [exact Q1|]. split; [exact Q2|]. apply (no_centers m c 2); auto.
  - intros HV. split.
    + intros W a b l ND Hl. apply Nat.le_ngt. intros L. destruct l as [|c0 l0] eqn:El; [cbn in L; lia|]. rewrite <- El in *.
      destruct (Hl c0) as (vs & Hvs & Hs); [rewrite El; left; reflexivity|]. destruct (Forall2_nth_r _ _ _ _ _ S Hvs) as (es & Hes & Sd).
      destruct (proj1 (sides_has_side _ _ _ a b Sd) Hs) as (f & Hf & J).
      assert (L2 : 2 < length (listing ess f)).
      { assert (Ic : incl l (listing ess f)) by (intros d Hd; apply (At f a b J); apply Hl; exact Hd). apply (NoDup_incl_length ND) in Ic. lia. }
      destruct (third_inner _ _ L2) as (c & es' & Hes' & Hf' & NO). destruct (wf_ring _ W c) as (fs' & Hr).
      { rewrite Lc, <- LE. assert (N.to_nat c < length ess) by (apply nth_error_Some; congruence). lia. }
      apply P_Apply.ring_iff in Hr. rewrite (T c es' f N (fun f => Ok f) Hes' Hf' NO) in Hr; [discriminate|]. intros g. exists g. reflexivity.
    + intros H2. assert (G2 : grid2_ok F) by (constructor; [apply (ga2_poly _ G)|exact H2|apply (ga2_cells _ G)|apply (ga2_size _ G)|apply (ga2_types _ G)]).
      destruct (C103_vtk2_range C K F s m0 old TX G2 HD HM) as (m2 & types2 & E2 & W & _). rewrite E in E2. injection E2 as <- _. apply W. exact HV.
Qed.
Print Assumptions C104_vtk2_shared.

(** * Spatial VTK files *)
(** The same for the faces of tetrahedra, pyramids, wedges and hexahedra. *)
Theorem C104_vtk3_shared : forall C (K : fp C) (F : vtk_file C) reserve s (m0 : Mesh (C * C * C)) old,
  vtk_text K F s -> grid3_any F -> (reserve = 0 \/ forall vs p, In vs (vf_cells F) -> In p (faces_of vs) -> length p <= reserve) ->
  m_dim m0 = 3 -> length (m_mid m0) = 1 ->
  exists m types edges ess, readVTK3 K reserve s m0 old = Ok (m, types) /\ m_mid m = [edges] /\ m_verts m = vf_pts F /\ length (m_cells m) = length (vf_cells F) /\
    Forall2 (fun es vs => Forall2 (fun f p => exists fc, nth_error (m_faces m) (N.to_nat f) = Some fc /\ bounds edges (f_subs fc) p) es (faces_of vs)) ess (vf_cells F) /\
    (forall i j f g p q, nth_error (m_faces m) i = Some f -> nth_error (m_faces m) j = Some g ->
       bounds edges (f_subs f) p -> bounds edges (f_subs g) q -> same_sides p q -> i = j) /\
    (forall c vs es, nth_error (vf_cells F) (N.to_nat c) = Some vs -> nth_error ess (N.to_nat c) = Some es ->
       (forall p, In p (faces_of vs) -> outer (at_face F p) c) -> ring m c es) /\
    (forall c vs p, nth_error (vf_cells F) (N.to_nat c) = Some vs -> In p (faces_of vs) -> ~ outer (at_face F p) c ->
       (forall es, ~ ring m c es) /\ apply1 m 3 2 c = Throw /\
       forall (A : Num) (g : C * C * C -> vec A) tess r, computeCenters tess (with_coords g m) <> Ok r) /\
    ((forall vs v, In vs (vf_cells F) -> In v vs -> (v < N.of_nat (length (vf_pts F)))%N) ->
       (wf_mesh m <-> forall p l, NoDup l -> (forall c, In c l -> at_face F p c) -> length l <= 2)).
Proof.
  intros C K F reserve s m0 old TX G HR HD HM.
  assert (R : exists m types its ess edges eem fem, readVTK3 K reserve s m0 old = Ok (m, types) /\ m_dim m = 3 /\ m_mid m = [edges] /\ m_verts m = vf_pts F /\
    m_cells m = map (fun es => hd INVALID es) ess /\ SInv3 (vf_cells F) edges eem its ess (m_faces m) fem).
  { destruct TX as (l1 & l2 & wn & wp & wc & wr & wt & wk & e1 & e2 & rest & s1 & s2 & s3 & -> & A1 & A2 & A3 & A4 & B1 & B2 & B3 & B4 & B5 & B6 & B7 & B8 & B9 & B10 & B11).
    destruct (load3_any F reserve [] [] [] m0 old G HR (fun H => H) (fun H => H) HD HM) as (m & types & its & ess & edges & eem & fem & E & D & M & B & V & Cs & I & _).
    rewrite app_nil_r in E. exists m, types, its, ess, edges, eem, fem.
    split; [apply (whole3 K F l1 l2 wn wp wc wr wt wk e1 e2 rest s1 s2 s3 (conj A1 A3) (conj A2 A4) B1 B2 B3 B4 B5 B6 B7 B8 B9 B10 B11 reserve [] [] m0 old m types (fun H => H) (fun H => H) E)|auto]. }
  destruct R as (m & types & its & ess & edges & eem & fem & E & D & M & V & Cs & [Ie Ib If Ic Iv]). pose proof Ib as [I1 I2 I3 I4 I5 I6].
  assert (S : Forall2 (fun es vs => Forall2 (fun f p => exists fc, nth_error (m_faces m) (N.to_nat f) = Some fc /\ bounds edges (f_subs fc) p) es (faces_of vs)) ess (vf_cells F)).
  { eapply Forall2_compose; [|exact I2|exact If]. intros es items vs _ (_ & _ & Q) Bn. eapply Forall2_compose; [|exact Q|exact Bn].
    intros f it p _ [K1 K2] Bp. exists (fat (m_faces m) f). split; [apply vat_ok, vat_fat; assumption|]. unfold key3 in K2. apply P_Text.face_key_iff in K2.
    eapply bounds_Permutation; [symmetry; exact K2|assumption]. }
  assert (U : forall i j f g p q, nth_error (m_faces m) i = Some f -> nth_error (m_faces m) j = Some g ->
       bounds edges (f_subs f) p -> bounds edges (f_subs g) q -> same_sides p q -> i = j).
  { intros i j f g p q Hi Hj Bp Bq Ss. assert (Pm : Permutation.Permutation (f_subs f) (f_subs g)) by (eapply same_sides_perm; eassumption).
    assert (N.of_nat i = N.of_nat j); [|lia].
    assert (Lt : forall k h, nth_error (m_faces m) k = Some h -> (N.of_nat k < flen (m_faces m))%N).
    { intros k h Hk. assert (k < length (m_faces m)) by (apply nth_error_Some; congruence). unfold flen. lia. }
    eapply fm_inv_uniq; [exact I1|eapply Lt; eassumption|eapply Lt; eassumption|].
    unfold fsubs. rewrite (fat_some _ _ _ Hi), (fat_some _ _ _ Hj). apply P_Text.face_key_iff. assumption. }
  assert (LE : length ess = length (vf_cells F)) by exact (Forall2_length' _ _ _ S).
  assert (HE : forall es, In es ess -> es <> [] /\ NoDup es /\ forall e, In e es -> (e < flen (m_faces m))%N).
  { intros es Hes. destruct (P_Bnd.Forall2_In_l _ _ _ _ I2 Hes) as (items & Hi & A & B' & Q). split; [|split; [assumption|]].
    - intros ->. inversion Q; congruence.
    - intros e He. destruct (P_Bnd.Forall2_In_l _ _ _ _ Q He) as (it & _ & Q' & _). assumption. }
  destruct (shared_rings m ess Cs) as [R T]; [pose proof (ga3_size _ G); lia|exact HE|exact I3|].
  assert (Lc : length (m_cells m) = length (vf_cells F)) by (rewrite Cs, map_length; exact LE).
  assert (At : forall f fc p, nth_error (m_faces m) (N.to_nat f) = Some fc -> bounds edges (f_subs fc) p -> forall d, In d (listing ess f) <-> at_face F p d).
  { intros f fc p Hfc Bp d. rewrite listing_In. unfold at_face. split.
    - intros (es & Hes & Hf). destruct (Forall2_nth_l _ _ _ _ _ S Hes) as (vs & Hvs & Sd). destruct (P_Bnd.Forall2_In_l _ _ _ _ Sd Hf) as (q & Hq & fc' & Hfc' & Bq).
      rewrite Hfc in Hfc'. injection Hfc' as <-. exists vs, q. split; [exact Hvs|]. split; [exact Hq|]. apply (bounds_perm_sides edges (f_subs fc) (f_subs fc)); auto.
    - intros (vs & q & Hvs & Hq & Ss). destruct (Forall2_nth_r _ _ _ _ _ S Hvs) as (es & Hes & Sd). exists es. split; [exact Hes|].
      destruct (P_Solid.Forall2_In_r _ _ _ _ Sd Hq) as (f' & Hf' & fc' & Hfc' & Bq). pose proof (U _ _ _ _ _ _ Hfc Hfc' Bp Bq Ss) as Q. apply N2Nat.inj in Q. subst f'. exact Hf'. }
  assert (In_ : forall c vs p, nth_error (vf_cells F) (N.to_nat c) = Some vs -> In p (faces_of vs) -> ~ outer (at_face F p) c ->
    forall X (body : N -> outcome X), (forall f, exists x, body f = Ok x) -> ring_walk m c body = Throw).
  { intros c vs p Hvs Hp HO X body Tot. destruct (Forall2_nth_r _ _ _ _ _ S Hvs) as (es & Hes & Sd).
    destruct (P_Solid.Forall2_In_r _ _ _ _ Sd Hp) as (f & Hf & fc & Hfc & Bp). apply (T c es f X body Hes Hf); [|exact Tot].
    intros Q. apply HO. revert Q. apply outer_iff. intros d. symmetry. apply (At f fc p Hfc Bp). }
  exists m, types, edges, ess. split; [exact E|]. split; [exact M|]. split; [exact V|]. split; [exact Lc|]. split; [exact S|]. split; [exact U|]. split; [|split].
  - intros c vs es Hvs Hes HO. apply R; [exact Hes|]. intros f Hf. destruct (Forall2_nth_l _ _ _ _ _ S Hes) as (vs' & Hvs' & Sd). rewrite Hvs in Hvs'. injection Hvs' as <-.
    destruct (P_Bnd.Forall2_In_l _ _ _ _ Sd Hf) as (p & Hp & fc & Hfc & Bp). apply (outer_iff _ _ c (At f fc p Hfc Bp)). apply HO. exact Hp.
  - intros c vs p Hvs Hp HO. assert (Hc : (c < N.of_nat (length (m_cells m)))%N) by (rewrite Lc; assert (N.to_nat c < length (vf_cells F)) by (apply nth_error_Some; congruence); lia).
    destruct (no_walk m c 1 D Hc) as [Q1 Q2]; [intros X body Tot; apply (In_ c vs p Hvs Hp HO X body Tot)|].
    split; [exact Q1|]. split; [exact Q2|]. apply (no_centers m c 3); auto.
  - intros HV. split.
    + intros W p l ND Hl. apply Nat.le_ngt. intros L. destruct l as [|c0 l0] eqn:El; [cbn in L; lia|]. rewrite <- El in *.
      assert (H0 : In c0 l) by (rewrite El; left; reflexivity). destruct (Hl c0 H0) as (vs & q & Hvs & Hq & Ss). destruct (Forall2_nth_r _ _ _ _ _ S Hvs) as (es & Hes & Sd).
      destruct (P_Solid.Forall2_In_r _ _ _ _ Sd Hq) as (f & Hf & fc & Hfc & Bq).
      assert (L2 : 2 < length (listing ess f)).
      { assert (Il : incl l (listing ess f)).
        { intros d Hd. apply (At f fc q Hfc Bq). destruct (Hl d Hd) as (vs' & q' & Hvs' & Hq' & Ss'). exists vs', q'. split; [exact Hvs'|]. split; [exact Hq'|].
          intros a b. rewrite <- (Ss a b). apply Ss'. }
        apply (NoDup_incl_length ND) in Il. lia. }
      destruct (third_inner _ _ L2) as (c & es' & Hes' & Hf' & NO). destruct (wf_ring _ W c) as (fs' & Hr).
      { rewrite Lc, <- LE. assert (N.to_nat c < length ess) by (apply nth_error_Some; congruence). lia. }
      apply P_Apply.ring_iff in Hr. rewrite (T c es' f N (fun f => Ok f) Hes' Hf' NO) in Hr; [discriminate|]. intros g. exists g. reflexivity.
    + intros H2. assert (G2 : grid3_ok F) by (constructor; [apply (ga3_cell _ G)|exact H2|apply (ga3_size _ G)|apply (ga3_types _ G)]).
      destruct (C103_vtk3_range C K F reserve s m0 old TX G2 HR HD HM) as (m2 & types2 & E2 & W & _). rewrite E in E2. injection E2 as <- _. apply W. exact HV.
Qed.
Print Assumptions C104_vtk3_shared.

(** Three tetrahedra on one triangle. *)
Definition star : fpma_file Q :=
  mkFile [((0, 0, 0)); ((3, 0, 0)); ((0, 3, 0)); ((1, 1, 1)); ((1, 1, 2)); ((1, 1, 3))]%Q
    [[0; 1; 2]; [0; 1; 3]; [1; 2; 3]; [2; 0; 3]; [0; 1; 4]; [1; 2; 4]; [2; 0; 4]; [0; 1; 5]; [1; 2; 5]; [2; 0; 5]]%N [[0; 1; 2; 3]; [0; 4; 5; 6]; [0; 7; 8; 9]]%N.
Definition small (n : N) : text := if (n <? 10)%N then [ascii_of_N (48 + n)] else str "10".
Definition starWords : list (text * text) :=
  map (fun n => (b1, small n)) ([6; 0; 0; 0; 3; 0; 0; 0; 3; 0; 1; 1; 1; 1; 1; 2; 1; 1; 3] ++
    [10; 3; 0; 1; 2; 3; 0; 1; 3; 3; 1; 2; 3; 3; 2; 0; 3; 3; 0; 1; 4; 3; 1; 2; 4; 3; 2; 0; 4; 3; 0; 1; 5; 3; 1; 2; 5; 3; 2; 0; 5] ++ [3; 4; 0; 1; 2; 3; 4; 0; 4; 5; 6; 4; 0; 7; 8; 9])%N.
Definition starText : text := Eval vm_compute in spelled starWords [].
Example C104_instance :
  file_cells star /\ words (map snd starWords) starText [] /\ Forall2 (shows exactQ) (map snd starWords) (layout star) /\
  ~ keeps (ff_cells star) 0 2 /\
  exists m, readFPMA exactQ 0 starText (emptyMesh 3) = Ok m /\ ring m 0 [0; 1; 2; 3]%N /\ ring m 1 [0; 4; 5; 6]%N /\ apply1 m 3 2 2 = Throw.
Proof.
  assert (FC : file_cells star).
  { constructor; cbn [star ff_polys ff_cells length].
    - unfold INVALID. lia.
    - unfold INVALID. lia.
    - intros fs Hfs. cbn [In] in Hfs. destruct Hfs as [<-|[<-|[<-|[]]]]; (split; [discriminate|]); (split; [apply nodupb_sound; reflexivity|]);
        intros f Hf; simpl in Hf; repeat (destruct Hf as [<-|Hf]; [reflexivity|]); destruct Hf. }
  assert (W : words (map snd starWords) starText []) by (apply (words_spelled starWords); vm_compute; reflexivity).
  assert (SH : Forall2 (shows exactQ) (map snd starWords) (layout star)).
  { unfold starWords, layout, star. cbn [ff_verts ff_polys ff_cells map flat_map app snd fst length N.of_nat].
    repeat (constructor; [cbn [shows]; first [apply index_plain; reflexivity|apply (coord_plain _ 0); reflexivity|apply (coord_plain _ 1); reflexivity|apply (coord_plain _ 2); reflexivity|apply (coord_plain _ 3); reflexivity]|]); constructor. }
  split; [exact FC|]. split; [exact W|]. split; [exact SH|].
  split; [intros H; vm_compute in H; destruct H as [H|[H|[]]]; discriminate H|].
  destruct (readFPMA exactQ 0 starText (emptyMesh 3)) as [m| | |] eqn:E; [|vm_compute in E; discriminate..]. exists m. vm_compute in E. injection E as <-.
  split; [reflexivity|]. split; [apply ring_iff; vm_compute; reflexivity|]. split; [apply ring_iff; vm_compute; reflexivity|]. vm_compute. reflexivity.
Qed.
(** Three triangles on one side, in a VTK file: the second one is not kept. *)
Definition fan : vtk_file Q := mkVtk [((0, 0, 0)); ((2, 0, 0)); ((1, 1, 0)); ((1, 2, 0)); ((1, 3, 0))]%Q [[0; 1; 2]; [1; 0; 3]; [0; 1; 4]]%N [5; 5; 5]%N.
Definition ws1 (l : list N) : list (text * text) := map (fun n => (b1, small n)) l.
Definition fanW1 : list (text * text) := [(b1, str "ASCII"); (eol, str "DATASET"); (b1, str "UNSTRUCTURED_GRID"); (eol, str "POINTS"); (b1, str "5")].
Definition fanW2 : list (text * text) := ws1 [0; 0; 0; 2; 0; 0; 1; 1; 0; 1; 2; 0; 1; 3; 0]%N.
Definition fanW3 : list (text * text) := ws1 [3; 0; 1; 2; 3; 1; 0; 3; 3; 0; 1; 4]%N.
Definition fanText : text :=
  str "# vtk DataFile Version 2.0" ++ nl :: str "three triangles" ++ nl ::
  spelled fanW1 (str " double" ++ nl :: spelled (fanW2 ++ [(eol, str "CELLS"); (b1, str "3")]) (str " 12" ++ nl ::
  spelled (fanW3 ++ [(eol, str "CELL_TYPES"); (b1, str "3")] ++ ws1 [5; 5; 5]%N) [])).
Example C104_vtk_instance : vtk_text exactQ fan fanText /\ grid2_any fan /\ ~ outer (at_side fan 0 1) 1 /\
  exists m types ess, readVTK2 exactQ fanText (emptyMesh 2) [] = Ok (m, types) /\ ess = [[0; 1; 2]; [0; 3; 4]; [0; 5; 6]]%N /\
    ring m 0 [0; 1; 2]%N /\ ring m 2 [0; 5; 6]%N /\ apply1 m 2 1 1 = Throw.
Proof.
  split.
  { exists (str "# vtk DataFile Version 2.0"), (str "three triangles"), (str "5"), (map snd fanW2), (str "3"), (map snd fanW3), (str "3"), (map snd (ws1 [5; 5; 5]%N)),
      (str " double"), (str " 12"), []. do 3 eexists.
    split; [reflexivity|]. split; [apply nin_check; reflexivity|]. split; [apply nin_check; reflexivity|]. split; [apply Nat.ltb_lt; reflexivity|]. split; [apply Nat.ltb_lt; reflexivity|].
    split; [apply (words_spelled fanW1); reflexivity|]. split; [apply index_plain; reflexivity|].
    split; [split; [apply nin_check; reflexivity|split; [apply Nat.ltb_lt; reflexivity|reflexivity]]|].
    split; [apply (words_spelled (fanW2 ++ [(eol, str "CELLS"); (b1, str "3")])); reflexivity|].
    split; [repeat (constructor; [first [apply (coord_plain _ 0); reflexivity|apply (coord_plain _ 1); reflexivity|apply (coord_plain _ 2); reflexivity|apply (coord_plain _ 3); reflexivity]|]); constructor|].
    split; [apply index_plain; reflexivity|].
    split; [split; [apply nin_check; reflexivity|split; [apply Nat.ltb_lt; reflexivity|reflexivity]]|].
    split; [apply (words_spelled (fanW3 ++ [(eol, str "CELL_TYPES"); (b1, str "3")] ++ ws1 [5; 5; 5]%N)); reflexivity|].
    split; [repeat (constructor; [apply index_plain; reflexivity|]); constructor|].
    split; [apply index_plain; reflexivity|]. repeat (constructor; [apply code_plain; reflexivity|]); constructor. }
  split.
  { constructor; cbn [fan vf_cells vf_types length concat app].
    + intros vs Hvs. cbn [In] in Hvs. destruct Hvs as [<-|[<-|[<-|[]]]]; (split; [apply nodupb_sound; reflexivity|cbn [length]; lia]).
    + unfold INVALID. lia.
    + unfold INVALID. lia.
    + lia. }
  split.
  { assert (S0 : at_side fan 0 1 0) by (exists [0; 1; 2]%N; split; [reflexivity|exists 0; left; split; reflexivity]).
    assert (S2 : at_side fan 0 1 2) by (exists [0; 1; 4]%N; split; [reflexivity|exists 0; left; split; reflexivity]).
    intros [O|O]; [specialize (O _ S0)|specialize (O _ S2)]; lia. }
  destruct (readVTK2 exactQ fanText (emptyMesh 2) []) as [[m types]| | |] eqn:E; [|vm_compute in E; discriminate..]. exists m, types, [[0; 1; 2]; [0; 3; 4]; [0; 5; 6]]%N. vm_compute in E. injection E as <- <-.
  split; [reflexivity|]. split; [reflexivity|]. split; [apply ring_iff; vm_compute; reflexivity|]. split; [apply ring_iff; vm_compute; reflexivity|]. vm_compute. reflexivity.
Qed.

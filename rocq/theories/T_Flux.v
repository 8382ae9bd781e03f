(** C73: conservation. What leaves one cell through a face enters its neighbour: the fluxes summed over the
    visits (cell, face) of a mesh traversal reduce to the fluxes through the boundary faces. *)
From Coq Require Import Reals Lra.
From Verif Require Import P_Base M_Index P_Index M_Conn M_Mesh M_Apply S_Mesh P_Apply S_Boundary P_Boundary T_Mesh S_Geom P_Geom S_Flux P_Flux
  S_Conn P_Conn M_Text P_Text M_FPMA S_FPMA P_FPMA M_VTK S_VTK P_Bnd T_FPMA T_VTK T_VTK3 T_Topology Ex_Mesh.
Local Open Scope R_scope.

(** C73. On a well formed mesh of any dimension d whose faces record their cells consistently, apply from cells to faces makes
    calls such that, for every flux phi given on the faces, the signed fluxes of all the calls (cell, face) add up
    to the signed fluxes through the faces that have a cell on one side only. *)
Theorem C73_conservation : forall V (m : Mesh V), wf_mesh m -> sides_match m ->
  exists calls, apply m (m_dim m) (m_dim m - 1) = Ok calls /\
  (forall c f, In (c, f) calls -> exists face, nth_error (m_faces m) (N.to_nat f) = Some face /\
     (cellLeft (bc (f_conn face)) = c \/ cellRight (bc (f_conn face)) = c)) /\
  forall phi : N -> R,
    Rsum (map (fun cf => side_sign m (snd cf) (fst cf) * phi (snd cf)) calls) =
    Rsum (map (fun f => boundary_sign m f * phi f) (seqN (length (m_faces m)))).
Proof.
  intros V m W M. pose proof (wf_dim _ W) as HD.
  destruct (apply_spec m (m_dim m) (m_dim m - 1) W ltac:(lia) ltac:(lia)) as (ls & HF & E).
  replace (Nat.max (m_dim m) (m_dim m - 1)) with (m_dim m) in * by lia.
  replace (Nat.min (m_dim m) (m_dim m - 1)) with (m_dim m - 1)%nat in * by lia.
  rewrite (proj2 (Nat.ltb_lt (m_dim m - 1) (m_dim m))) in E by lia.
  assert (EN : n_elems m (m_dim m) = length (m_cells m)).
  { unfold n_elems. rewrite Nat.eqb_refl. destruct (Nat.eqb_spec (m_dim m) 0); [lia|reflexivity]. }
  rewrite EN in *.
  assert (HR : Forall2 (ring m) (seqN (length (m_cells m))) ls).
  { eapply Forall2_mono; [|exact HF]. intros c js Hv. clear -Hv HD.
    destruct (m_dim m) as [|d] eqn:Ed; [lia|]. replace (S d - 1)%nat with d in Hv by lia.
    inversion Hv as [k i E1 E2|k t i fs ls0 Hle Hc HFv E1 E2]; subst; [lia|].
    assert (concat ls0 = fs) as ->.
    { clear -HFv. induction HFv as [|f l fs ls H HF IH]; [reflexivity|]. simpl. rewrite IH.
      inversion H; subst; [reflexivity|]. lia. }
    unfold children in Hc. rewrite Ed, Nat.eqb_refl in Hc. assumption. }
  eexists. split; [exact E|]. split.
  - intros c f Hin. apply in_concat in Hin as (l & Hl & Hin). apply in_map_iff in Hl as ([c' fs] & <- & Hp).
    apply in_map_iff in Hin as (f' & Ef & Hf). cbn [fst snd] in *. injection Ef as -> ->.
    assert (R : ring m c fs).
    { clear -HR Hp. induction HR as [|c0 fs0 cs rs H HF IH]; [contradiction|]. destruct Hp as [Hp|Hp]; [injection Hp as <- <-; assumption|auto]. }
    destruct R as (f0 & r & -> & _ & Hc & _).
    assert (Hs : exists g, succ_face m c f g).
    { clear -Hc Hf. revert Hc Hf. generalize f0 at 1 as g0. generalize (f0 :: r) as l. induction l as [|a [|b l] IH]; intros g0 Hc Hf.
      - contradiction.
      - destruct Hf as [<-|[]]. eexists; exact Hc.
      - destruct Hc as [H1 H2]. destruct Hf as [<-|Hf]; [eauto|]. eapply IH; eassumption. }
    destruct Hs as (g & face & Hface & Hg). exists face. split; [assumption|].
    unfold getNextBElem in Hg. destruct (N.eqb c INVALID); [discriminate|].
    destruct (N.eqb_spec c (cellRight (bc (f_conn face)))); [auto|].
    destruct (N.eqb_spec c (cellLeft (bc (f_conn face)))); [auto|discriminate].
  - intros phi. rewrite <- (cells_flux m ls phi M HR).
    generalize (combine (seqN (length (m_cells m))) ls) as ps. clear.
    induction ps as [|[c fs] ps IH]; [reflexivity|]. cbn [map concat fst snd Rsum]. rewrite map_app, Rsum_app, IH. f_equal.
    rewrite map_map. reflexivity.
Qed.
Print Assumptions C73_conservation.

(** C73. Faces between two cells cancel: only faces with one cell contribute to the right-hand side. *)
Theorem C73_interior_cancels : forall V (m : Mesh V) f face, nth_error (m_faces m) (N.to_nat f) = Some face ->
  let l := is_cell m (cellLeft (bc (f_conn face))) in let r := is_cell m (cellRight (bc (f_conn face))) in
  (l = true -> r = true -> boundary_sign m f = 0) /\
  (l = true -> r = false -> boundary_sign m f = 1) /\
  (l = false -> r = true -> boundary_sign m f = -1) /\
  (* and the two cells of a face see it with opposite signs *)
  (cellLeft (bc (f_conn face)) <> cellRight (bc (f_conn face)) ->
   side_sign m f (cellLeft (bc (f_conn face))) = 1 /\ side_sign m f (cellRight (bc (f_conn face))) = -1).
Proof.
  intros V m f face Hf l r. unfold boundary_sign, side_sign. rewrite Hf. fold l r. splits; intros Hl Hr || intros Hne.
  - rewrite Hl, Hr. ring.
  - rewrite Hl, Hr. ring.
  - rewrite Hl, Hr. ring.
  - rewrite !N.eqb_refl. destruct (N.eqb_spec (cellRight (bc (f_conn face))) (cellLeft (bc (f_conn face)))); [congruence|].
    destruct (N.eqb_spec (cellLeft (bc (f_conn face))) (cellRight (bc (f_conn face)))); [congruence|]. split; ring.
Qed.
Print Assumptions C73_interior_cancels.

(** Meshes whose sides are set by the readers have consistent sides. *)
Lemma sides_match_listing {V} (m : Mesh V) ess :
  length (m_cells m) = length ess -> (N.of_nat (length ess) <= INVALID)%N ->
  (forall c es, nth_error ess (N.to_nat c) = Some es -> ring m c es) ->
  (forall i f, nth_error (m_faces m) i = Some f ->
     cellLeft (bc (f_conn f)) = nth 0 (listing ess (N.of_nat i)) INVALID /\
     cellRight (bc (f_conn f)) = nth 1 (listing ess (N.of_nat i)) INVALID) -> sides_match m.
Proof.
  intros L HL HR HS c fs f face Hr Hf Hc. destruct (HS _ _ Hf) as [S0 S1]. rewrite N2Nat.id in S0, S1.
  assert (Hlt : (N.to_nat c < length ess)%nat).
  { destruct Hr as (f0 & r & _ & H & _). rewrite <- L. apply nth_error_Some. congruence. }
  destruct (nth_error ess (N.to_nat c)) as [es|] eqn:Ees; [|apply nth_error_None in Ees; lia].
  rewrite (ring_det m c fs es Hr (HR c es Ees)).
  assert (Hin : In c (listing ess f)).
  { assert (Hne : c <> INVALID) by lia.
    assert (Q : forall k, nth k (listing ess f) INVALID = c -> In c (listing ess f)).
    { intros k Hk. destruct (nth_in_or_default k (listing ess f) INVALID) as [Hi|Hi]; [rewrite Hk in Hi; assumption|congruence]. }
    destruct Hc as [Hc|Hc]; [apply (Q 0%nat)|apply (Q 1%nat)]; congruence. }
  apply in_listing in Hin as (es' & Hes' & Hin). assert (es' = es) by congruence. subst. assumption.
Qed.

(** C73. The hypotheses hold of every mesh the readers produce: FPMA, planar and spatial VTK. *)
Theorem C73_fpma : forall C reserve (F : fpma_file C) rest,
  file_ok F ->
  (forall p, In p (ff_polys F) -> polygon p /\ forall v, In v p -> (v < N.of_nat (length (ff_verts F)))%N) ->
  (reserve = 0%nat \/ forall p, In p (ff_polys F) -> (length p <= reserve)%nat) ->
  exists m, loadFPMA reserve (layout F ++ rest) (emptyMesh 3) = Ok m /\ wf_mesh m /\ sides_match m.
Proof.
  intros C reserve F rest FO FP HR.
  destruct (C20_fpma_wf C reserve F rest FO FP HR) as (m & E & W). exists m. split; [assumption|]. split; [assumption|].
  destruct (C20_fpma_cells C reserve F rest FO HR) as (m' & E' & L & R & S). assert (m' = m) by congruence. subst m'.
  eapply sides_match_listing; eauto. apply fo_cells. assumption.
Qed.
Print Assumptions C73_fpma.
Theorem C73_vtk2 : forall C (F : vtk_file C) l1 l2 rest (m0 : Mesh (C * C)) old,
  grid2_ok F -> one_line l1 -> one_line l2 -> m_dim m0 = 2%nat -> m_mid m0 = [] ->
  (forall vs v, In vs (vf_cells F) -> In v vs -> (v < N.of_nat (length (vf_pts F)))%N) ->
  exists m types, loadVTK2 (vtk_header l1 l2 ++ vtk_body F ++ rest) m0 old = Ok (m, types) /\ wf_mesh m /\ sides_match m.
Proof.
  intros C F l1 l2 rest m0 old G H1 H2 HD HM HV.
  destruct (C24_vtk2_wf F l1 l2 rest m0 old G H1 H2 HD HM HV) as (m & types & E & W). exists m, types. split; [assumption|]. split; [assumption|].
  destruct (C24_vtk2_read F l1 l2 rest m0 old G H1 H2 HD HM) as (m' & types' & ess & E' & D & M & V & L & S & R & _ & _ & LR & _).
  assert (m' = m) by congruence. subst m'. assert (LE : length ess = length (vf_cells F)) by (apply Forall2_length' in S; assumption).
  apply (sides_match_listing m ess); [congruence| |assumption|].
  - pose proof (g2_cells _ G). lia.
  - intros i f Hf. destruct (LR i f Hf) as (A & B & _). auto.
Qed.
Print Assumptions C73_vtk2.
Theorem C73_vtk3 : forall C (F : vtk_file C) reserve l1 l2 rest (m0 : Mesh (C * C * C)) old,
  grid3_ok F -> (reserve = 0%nat \/ forall vs p, In vs (vf_cells F) -> In p (faces_of vs) -> (length p <= reserve)%nat) ->
  one_line l1 -> one_line l2 -> m_dim m0 = 3%nat -> length (m_mid m0) = 1%nat ->
  (forall vs v, In vs (vf_cells F) -> In v vs -> (v < N.of_nat (length (vf_pts F)))%N) ->
  exists m types, loadVTK3 reserve (vtk_header l1 l2 ++ vtk_body F ++ rest) m0 old = Ok (m, types) /\ wf_mesh m /\ sides_match m.
Proof.
  intros C F reserve l1 l2 rest m0 old G HR H1 H2 HD HM HV.
  destruct (C28_vtk3_wf F reserve l1 l2 rest m0 old G HR H1 H2 HD HM HV) as (m & types & E & W). exists m, types. split; [assumption|]. split; [assumption|].
  destruct (C28_vtk3_read F reserve l1 l2 rest m0 old G HR H1 H2 HD HM)
    as (m' & types' & edges & ess & E' & D & M & V & L & S & R & _ & _ & _ & _ & LR).
  assert (m' = m) by congruence. subst m'. assert (LE : length ess = length (vf_cells F)) by (apply Forall2_length' in S; assumption).
  apply (sides_match_listing m ess); [congruence| |assumption|].
  - pose proof (g3_size _ G). lia.
  - intros i f Hf. destruct (LR i f Hf) as (A & B & _). auto.
Qed.
Print Assumptions C73_vtk3.

(** C73. Adding boundary cells changes nothing: the sides still match and all the signs are the same. *)
Theorem C73_boundary_cells : forall V (m : Mesh V), (1 <= m_dim m)%nat -> (N.of_nat (length (m_cells m)) <= 2 ^ 63)%N ->
  let m' := setupBoundaryCells m in
  (sides_match m -> sides_match m') /\
  (forall f, boundary_sign m' f = boundary_sign m f) /\
  (forall f c, (c < N.of_nat (length (m_cells m)))%N -> side_sign m' f c = side_sign m f c).
Proof.
  intros V m HD HC m'. destruct (C06_topology_kept V m HD HC) as (_ & _ & HR & _). fold m' in HR.
  pose proof (setup_rest m) as (_ & _ & _ & C). change (m_cells m' = m_cells m) in C.
  assert (Q : forall c s x, (c < 2 ^ 63)%N -> ((if (s =? INVALID)%N then bcode x else s) =? c)%N = (s =? c)%N).
  { intros c s x Hc. destruct (N.eqb_spec s INVALID) as [->|]; [|reflexivity].
    assert (Hi : INVALID <> c) by (intros <-; revert Hc; clear; intros Hc; vm_compute in Hc; discriminate).
    rewrite (proj2 (N.eqb_neq _ _) (bcode_not_plain x c Hc)), (proj2 (N.eqb_neq _ _) Hi). reflexivity. }
  assert (Nf : forall f, (nth_error (m_faces m) (N.to_nat f) = None /\ nth_error (m_faces m') (N.to_nat f) = None) \/
    exists face n, nth_error (m_faces m) (N.to_nat f) = Some face /\ nth_error (m_faces m') (N.to_nat f) = Some (face_after n face)).
  { intros f. destruct (nth_error (m_faces m') (N.to_nat f)) as [f'|] eqn:E.
    - right. destruct (setup_face_nth m _ _ E) as (fc & n & H & ->). eauto.
    - left. split; [|reflexivity]. apply nth_error_None. apply nth_error_None in E. unfold m' in E.
      rewrite setup_faces, faces_after_length in E. assumption. }
  assert (Ic : forall s x, is_cell m' (if (s =? INVALID)%N then bcode x else s) = is_cell m s).
  { intros s x. unfold is_cell. rewrite C. destruct (N.eqb_spec s INVALID) as [->|]; [|reflexivity].
    assert (H1 : (2 ^ 63 <= bcode x)%N) by (destruct (N.lt_ge_cases (bcode x) (2 ^ 63)) as [H|H]; [exfalso; apply (bcode_not_plain x _ H eq_refl)|exact H]).
    assert (H2 : (2 ^ 63 <= INVALID)%N) by (clear; intros H; vm_compute in H; discriminate).
    rewrite (proj2 (N.ltb_ge _ _)) by (eapply N.le_trans; eassumption).
    rewrite (proj2 (N.ltb_ge _ _)) by (eapply N.le_trans; eassumption). reflexivity. }
  splits.
  - intros M c fs f face' Hr Hf Hc. apply HR in Hr.
    assert (Hlt : (c < 2 ^ 63)%N).
    { destruct Hr as (f0 & r & _ & H & _). assert (N.to_nat c < length (m_cells m))%nat by (apply nth_error_Some; congruence). lia. }
    destruct (Nf f) as [[_ H]|(face & n & H1 & H2)]; [congruence|]. rewrite Hf in H2. injection H2 as ->.
    apply (M c fs f face Hr H1). unfold face_after, cellOn in Hc. cbn [f_conn bc cellLeft cellRight] in Hc.
    destruct Hc as [Hc|Hc]; apply N.eqb_eq in Hc; rewrite (Q c _ _ Hlt) in Hc; apply N.eqb_eq in Hc; auto.
  - intros f. unfold boundary_sign. destruct (Nf f) as [[-> ->]|(face & n & -> & ->)]; [reflexivity|].
    unfold face_after, cellOn. cbn [f_conn bc cellLeft cellRight]. rewrite !Ic. reflexivity.
  - intros f c Hc. assert (Hlt : (c < 2 ^ 63)%N) by lia. unfold side_sign.
    destruct (Nf f) as [[-> ->]|(face & n & -> & ->)]; [reflexivity|].
    unfold face_after, cellOn. cbn [f_conn bc cellLeft cellRight]. rewrite !(Q c _ _ Hlt). reflexivity.
Qed.
Print Assumptions C73_boundary_cells.

(** Non-vacuity: two prisms. The traversal makes ten visits; nine faces; the shared face does not contribute. *)
Lemma sides_match_check {V} (m : Mesh V) :
  forallb (fun c => match ring_walk m c (fun f => Ok f) with
     | Ok fs => forallb (fun f => match nth_error (m_faces m) (N.to_nat f) with
          | Some face => implb ((cellLeft (bc (f_conn face)) =? c)%N || (cellRight (bc (f_conn face)) =? c)%N) (existsb (N.eqb f) fs)
          | None => true end) (seqN (length (m_faces m)))
     | _ => true end) (seqN (length (m_cells m))) = true -> sides_match m.
Proof.
  intros H c fs f face Hr Hf Hc. rewrite forallb_forall in H.
  assert (Hl : In c (seqN (length (m_cells m)))).
  { destruct Hr as (f0 & r & _ & Hn & _). apply in_seqN. assert (N.to_nat c < length (m_cells m))%nat by (apply nth_error_Some; congruence). lia. }
  specialize (H c Hl). apply ring_iff in Hr. rewrite Hr in H. rewrite forallb_forall in H.
  assert (Hlf : In f (seqN (length (m_faces m)))).
  { apply in_seqN. assert (N.to_nat f < length (m_faces m))%nat by (apply nth_error_Some; congruence). lia. }
  specialize (H f Hlf). rewrite Hf in H.
  assert (E : ((cellLeft (bc (f_conn face)) =? c)%N || (cellRight (bc (f_conn face)) =? c)%N)%bool = true).
  { destruct Hc as [->| ->]; rewrite N.eqb_refl; [reflexivity|apply orb_true_r]. }
  rewrite E in H. simpl in H. apply existsb_exists in H as (x & Hx & Ex). apply N.eqb_eq in Ex. subst. assumption.
Qed.
Example C73_instance : wf_mesh twoPrisms /\ sides_match twoPrisms /\
  length (m_faces twoPrisms) = 9%nat /\ boundary_sign twoPrisms 1 = 1 /\
  exists f, (f < 9)%N /\ boundary_sign twoPrisms f = 0 /\ side_sign twoPrisms f 0 = 1 /\ side_sign twoPrisms f 1 = -1.
Proof.
  split; [apply twoPrisms_wf|]. split; [apply sides_match_check; vm_compute; reflexivity|].
  split; [reflexivity|]. split.
  - unfold boundary_sign. simpl. lra.
  - exists 8%N. split; [lia|]. unfold boundary_sign, side_sign. simpl. lra.
Qed.

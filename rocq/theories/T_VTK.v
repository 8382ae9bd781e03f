(** C24, C26 and the VTK part of C23: the planar VTK reader. *)
From Coq Require Import String Permutation.
From Verif Require Import P_Base M_Conn S_Conn P_Conn M_Mesh S_Mesh M_Text P_Text M_FPMA S_FPMA P_Poly P_FPMA P_FPMAWrite
  M_VTK S_VTK P_Bnd P_VTK.
Local Open Scope list_scope.

Lemma fsubs_edges2 {V} (m : Mesh V) e : (e < flen (m_faces m))%N ->
  nth_error (edges2 m) (N.to_nat e) = Some (fsubs (m_faces m) e).
Proof.
  intros H. unfold edges2. rewrite nth_error_map.
  apply vat_fat in H. apply vat_ok in H. rewrite H. reflexivity.
Qed.

Lemma binv2_sides {C} (F : vtk_file C) {V} (m : Mesh V) ess em :
  grid2_ok F -> BInv key2 (map pairs_items (vf_cells F)) ess (m_faces m) em ->
  Forall2 (sides_of (edges2 m)) ess (vf_cells F) /\
  (forall e e' a b, joins (edges2 m) e a b -> joins (edges2 m) e' a b -> e = e').
Proof.
  intros G I. pose proof I as [I1 I2 I3 I4 I5 I6].
  assert (Pair : forall e, (e < flen (m_faces m))%N -> exists x y, fsubs (m_faces m) e = [x; y]).
  { intros e He. destruct (I5 e He) as (c & items & _ & Hi & Hs). rewrite nth_error_map in Hi.
    destruct (nth_error (vf_cells F) c) as [vs|]; [|discriminate]. injection Hi as <-.
    apply in_pairs_items in Hs as (i & a & b & E & _). eauto. }
  split.
  - rewrite Forall2_map_r in I2. eapply Forall2_mono; [|exact I2].
    intros es vs (_ & _ & K). apply sides_of_iff. unfold pairs_items in K. rewrite Forall2_map_r in K.
    eapply Forall2_mono; [|exact K]. intros e [a b] [K1 K2]. cbn [fst snd] in *.
    destruct (Pair e K1) as (x & y & E). unfold joins. rewrite fsubs_edges2 by assumption.
    rewrite E in *. apply key2_iff in K2 as [[-> ->]|[-> ->]]; auto.
  - intros e e' a b J J'.
    assert (L : (forall x u v, joins (edges2 m) x u v -> x < flen (m_faces m))%N).
    { intros x u v K. apply joins_lt in K. unfold edges2 in K. rewrite map_length in K. unfold flen. lia. }
    assert (K : (forall x, joins (edges2 m) x a b -> key2 (fsubs (m_faces m) x) = key2 [a; b])%N).
    { intros x [H|H]; pose proof H as H'; rewrite fsubs_edges2 in H by (eapply L; [left; exact H'] || (eapply L; right; exact H'));
        injection H as ->; apply key2_iff; auto. }
    eapply fm_inv_uniq; [exact I1|eapply L; eassumption|eapply L; eassumption|].
    rewrite (K e J), (K e' J'). reflexivity.
Qed.

(** ** C24: a conforming planar grid becomes a mesh whose cells walk around their polygons. *)
Theorem C24_vtk2_read {C} (F : vtk_file C) l1 l2 rest (m0 : Mesh (C * C)) old :
  grid2_ok F -> one_line l1 -> one_line l2 -> m_dim m0 = 2 -> m_mid m0 = [] ->
  exists m types ess,
    loadVTK2 (vtk_header l1 l2 ++ vtk_body F ++ rest) m0 old = Ok (m, types) /\
    m_dim m = 2 /\ m_mid m = [] /\ m_verts m = map fst (vf_pts F) /\
    (* the boundary walk of every cell follows the sides of its polygon *)
    length (m_cells m) = length (vf_cells F) /\
    Forall2 (sides_of (edges2 m)) ess (vf_cells F) /\
    (forall c es, nth_error ess (N.to_nat c) = Some es -> ring m c es) /\
    (* one edge per vertex pair, and no other edges *)
    (forall e e' a b, joins (edges2 m) e a b -> joins (edges2 m) e' a b -> e = e') /\
    (forall e, (e < N.of_nat (length (edges2 m)))%N -> exists es, In es ess /\ In e es) /\
    (* sides of an edge: the first and the second cell that has it, in file order *)
    (forall i f, nth_error (m_faces m) i = Some f ->
       cellLeft (bc (f_conn f)) = nth 0 (listing ess (N.of_nat i)) INVALID /\
       cellRight (bc (f_conn f)) = nth 1 (listing ess (N.of_nat i)) INVALID /\
       length (listing ess (N.of_nat i)) <= 2) /\
    (* an edge runs from A to B in the direction of its left cell *)
    (forall i f, nth_error (m_faces m) i = Some f ->
       exists vs j a b, nth_error (vf_cells F) (N.to_nat (cellLeft (bc (f_conn f)))) = Some vs /\
         side vs j a b /\ f_subs f = [a; b]).
Proof.
  intros G H1 H2 HD HM.
  destruct (load2_spec F l1 l2 rest m0 old G H1 H2 HD HM) as (m & types & ess & E & D & M & B & V & Cs & (em & I) & _).
  pose proof I as [I1 I2 I3 I4 I5 I6].
  assert (LE : length ess = length (vf_cells F)).
  { apply Forall2_length' in I2. rewrite map_length in I2. assumption. }
  assert (Two : forall e, length (listing ess e) <= 2).
  { intros e. destruct (N.lt_ge_cases e (flen (m_faces m))) as [He|He].
    - eapply (listing_two key2 0); [exact I|apply pairs_two; assumption|assumption].
    - destruct (listing ess e) as [|x r] eqn:El; [simpl; lia|exfalso].
      assert (K : In x (listing ess e)) by (rewrite El; left; reflexivity).
      apply in_listing in K as (fs & Hfs & Hin). apply nth_error_In in Hfs.
      destruct (Forall2_In_l _ _ _ _ I2 Hfs) as (items0 & _ & _ & _ & K).
      destruct (Forall2_In_l _ _ _ _ K Hin) as (it & _ & K' & _). lia. }
  destruct (binv2_sides F m ess em G I) as [S U].
  destruct (rings_of_calls m ess Cs) as [R LR].
  - pose proof (g2_cells _ G). lia.
  - intros es Hes. destruct (Forall2_In_l _ _ _ _ I2 Hes) as (items & Hi & A & B' & K).
    split; [|split; [assumption|]].
    + intros ->. inversion K. congruence.
    + intros e He. destruct (Forall2_In_l _ _ _ _ K He) as (it & _ & K' & _). assumption.
  - assumption.
  - intros i _. apply I3.
  - exists m, types, ess. splits; auto.
    + rewrite Cs, map_length. assumption.
    + intros e He. unfold edges2 in He. rewrite map_length in He. specialize (I4 e He).
      destruct (listing ess e) as [|x r] eqn:El; [contradiction|].
      assert (K : In x (listing ess e)) by (rewrite El; left; reflexivity).
      apply in_listing in K as (fs & Hfs & Hin). exists fs. split; [eapply nth_error_In; eassumption|assumption].
    + intros i f Hf. destruct (LR i f Hf) as [A B']. auto.
    + intros i f Hf. destruct (LR i f Hf) as [A _].
      assert (Hi : (N.of_nat i < flen (m_faces m))%N).
      { assert (i < length (m_faces m)) by (apply nth_error_Some; congruence). unfold flen. lia. }
      destruct (I5 _ Hi) as (c & items & K1 & K2 & K3).
      rewrite A, (nth_error_nth _ _ _ K1), Nat2N.id. rewrite nth_error_map in K2.
      destruct (nth_error (vf_cells F) c) as [vs|]; [|discriminate]. injection K2 as <-.
      apply in_pairs_items in K3 as (j & a & b & E' & Hs). exists vs, j, a, b. splits; auto.
      rewrite <- E'. unfold fsubs. rewrite (fat_some _ _ _ Hf). reflexivity.
Qed.
Print Assumptions C24_vtk2_read.

(** ** C23 for VTK: what is loaded does not depend on what the mesh held before (boundary cells aside). *)
Theorem C23_vtk2_replaces {C} ts (m1 m2 : Mesh (C * C)) old :
  m_dim m1 = m_dim m2 -> length (m_mid m1) = length (m_mid m2) -> m_bcells m1 = m_bcells m2 ->
  loadVTK2 ts m1 old = loadVTK2 ts m2 old.
Proof.
  intros HD HM HB. unfold loadVTK2, loadVTK.
  assert (E : clear m1 = clear m2).
  { unfold clear. rewrite HD, HB. f_equal. revert HM. generalize (m_mid m2) as k.
    induction (m_mid m1) as [|a l IH]; intros [|b k] H; try discriminate; [reflexivity|].
    simpl. f_equal. apply IH. simpl in H. lia. }
  rewrite E. reflexivity.
Qed.
Print Assumptions C23_vtk2_replaces.
Theorem C23_vtk3_replaces {C} reserve ts (m1 m2 : Mesh (C * C * C)) old :
  m_dim m1 = m_dim m2 -> length (m_mid m1) = length (m_mid m2) -> m_bcells m1 = m_bcells m2 ->
  loadVTK3 reserve ts m1 old = loadVTK3 reserve ts m2 old.
Proof.
  intros HD HM HB. unfold loadVTK3, loadVTK.
  assert (E : clear m1 = clear m2).
  { unfold clear. rewrite HD, HB. f_equal. revert HM. generalize (m_mid m2) as k.
    induction (m_mid m1) as [|a l IH]; intros [|b k] H; try discriminate; [reflexivity|].
    simpl. f_equal. apply IH. simpl in H. lia. }
  rewrite E. reflexivity.
Qed.
Print Assumptions C23_vtk3_replaces.

(** A loaded grid whose vertex indices exist is a well formed mesh. *)
Theorem C24_vtk2_wf {C} (F : vtk_file C) l1 l2 rest (m0 : Mesh (C * C)) old :
  grid2_ok F -> one_line l1 -> one_line l2 -> m_dim m0 = 2 -> m_mid m0 = [] ->
  (forall vs v, In vs (vf_cells F) -> In v vs -> (v < N.of_nat (length (vf_pts F)))%N) ->
  exists m types, loadVTK2 (vtk_header l1 l2 ++ vtk_body F ++ rest) m0 old = Ok (m, types) /\ wf_mesh m.
Proof.
  intros G H1 H2 HD HM HV.
  destruct (C24_vtk2_read F l1 l2 rest m0 old G H1 H2 HD HM)
    as (m & types & ess & E & D & M & V & L & S & R & _ & _ & _ & Dir).
  exists m, types. split; [assumption|]. split.
  - lia.
  - rewrite D, M. reflexivity.
  - intros k i js Hk Hs. assert (k = 1) by lia. subst k. unfold subs in Hs. rewrite D in Hs. cbn [Nat.eqb Nat.sub] in Hs.
    apply bind_ok in Hs as (f & Hf & Hs). injection Hs as <-. apply vat_ok in Hf.
    destruct (Dir _ _ Hf) as (vs & j & a & b & Hvs & Hs & ->).
    assert (Hp : polygon vs) by (apply (g2_poly _ G); eapply nth_error_In; eassumption).
    assert (Hin : forall x, In x [a; b] -> In x vs).
    { destruct Hs as [A B]. intros x [<-|[<-|[]]]; eapply nth_error_In; eassumption. }
    split; [|split].
    + constructor; [|constructor; [simpl; tauto|constructor]]. intros [K|[]].
      apply (side_ne vs j a b Hp Hs). congruence.
    + intros x Hx. unfold n_elems. cbn [Nat.sub Nat.eqb]. rewrite V, map_length.
      apply (HV vs); [eapply nth_error_In; eassumption|auto].
    + reflexivity.
  - intros c Hc. rewrite L in Hc. pose proof (Forall2_length' _ _ _ S) as LS.
    destruct (nth_error ess (N.to_nat c)) as [es|] eqn:Ee; [eauto|].
    apply nth_error_None in Ee. lia.
Qed.
Print Assumptions C24_vtk2_wf.

(** ** C26: cell type codes. *)
(** The codes the formats define (VTK file format documentation). *)
Inductive vtk_code2 : N -> etype -> Prop :=
| code_line : vtk_code2 3 LINE | code_tri : vtk_code2 5 TRIANGLE | code_polygon : vtk_code2 7 POLYGON
| code_pixel : vtk_code2 8 QUAD | code_quad : vtk_code2 9 QUAD.
Inductive vtk_code3 : N -> etype -> Prop :=
| code_tetra : vtk_code3 10 TETRA | code_voxel : vtk_code3 11 HEXAHEDRON | code_hexa : vtk_code3 12 HEXAHEDRON
| code_wedge : vtk_code3 13 WEDGE | code_pyramid : vtk_code3 14 PYRAMID.

Lemma vtkType2_iff code t : vtkType2 code = Some t <-> vtk_code2 code t.
Proof.
  unfold vtkType2. split.
  - repeat match goal with |- context [(code =? ?k)%N] => destruct (N.eqb_spec code k) as [->|] end;
      intros H; inv H; constructor.
  - intros H; destruct H; reflexivity.
Qed.
Lemma vtkType3_iff code t : vtkType3 code = Some t <-> vtk_code3 code t.
Proof.
  unfold vtkType3. split.
  - repeat match goal with |- context [(code =? ?k)%N] => destruct (N.eqb_spec code k) as [->|] end;
      intros H; inv H; constructor.
  - intros H; destruct H; reflexivity.
Qed.

Lemma vresize_nth (old : list etype) n i : i < n ->
  nth_error (vresize n Tdefault old) i = Some (nth i old Tdefault).
Proof.
  intros Hi. unfold vresize. destruct (Nat.lt_ge_cases i (length old)) as [Ho|Ho].
  - rewrite nth_error_app1 by (rewrite firstn_length; lia).
    assert (K : nth_error old i = Some (nth i old Tdefault)) by (apply nth_error_nth'; assumption).
    rewrite <- (firstn_skipn n old) in K at 1.
    rewrite nth_error_app1 in K by (rewrite firstn_length; lia). assumption.
  - rewrite nth_error_app2 by (rewrite firstn_length; lia). rewrite (nth_overflow old) by assumption.
    rewrite firstn_length, Nat.min_r by lia. apply nth_error_repeat. lia.
Qed.

(** A supported code sets the cell's type; an unsupported one raises nothing and leaves the entry the
    reader held for that cell (the default entry for a new reader). *)
Theorem C26_types2 {C} (F : vtk_file C) l1 l2 rest (m0 : Mesh (C * C)) old :
  grid2_ok F -> one_line l1 -> one_line l2 -> m_dim m0 = 2 -> m_mid m0 = [] ->
  exists m types,
    loadVTK2 (vtk_header l1 l2 ++ vtk_body F ++ rest) m0 old = Ok (m, types) /\
    length types = length (vf_cells F) /\
    (forall i code t, nth_error (vf_types F) i = Some code -> vtk_code2 code t -> nth_error types i = Some t) /\
    (forall i code, nth_error (vf_types F) i = Some code -> (forall t, ~ vtk_code2 code t) ->
       nth_error types i = Some (nth i old Tdefault)).
Proof.
  intros G H1 H2 HD HM.
  destruct (load2_spec F l1 l2 rest m0 old G H1 H2 HD HM) as (m & types & ess & E & _ & _ & _ & _ & _ & _ & L & T).
  exists m, types. splits; auto.
  - intros i code t Hc Ht. apply vtkType2_iff in Ht. rewrite T, Hc, Ht. reflexivity.
  - intros i code Hc Ht. rewrite T, Hc. destruct (vtkType2 code) as [t|] eqn:Ev.
    { apply vtkType2_iff in Ev. exfalso. apply (Ht t Ev). }
    assert (Hi : i < length (vf_cells F)).
    { assert (i < length (vf_types F)) by (apply nth_error_Some; congruence). pose proof (g2_types _ G). lia. }
    apply vresize_nth. assumption.
Qed.
Print Assumptions C26_types2.

(** C76: the life of a mesh object: centres, boundary cells, and what they change in the geometric functions. *)
From Coq Require Import Reals Lra.
From Verif Require Import P_Base M_Index P_Index T_Index M_Conn M_Mesh M_Apply S_Mesh P_Apply S_Boundary P_Boundary T_Mesh M_Vec S_Vec P_Vec
  M_Geom S_Geom P_Geom P_Centers T_Centers T_Dist M_GeomN M_Object P_Object T_Topology Ex_Mesh Ex_Geom.
Local Open Scope R_scope.

Lemma centerAt_tab (cs : list (list point)) k tab n : nth_error cs (k - 1) = Some tab -> length tab = n ->
  mapM (centerAt (K := numR) cs k) (seqN n) = Ok tab.
Proof.
  intros Hc L. apply mapM_ok. unfold centerAt. apply nth_error_nth with (d := []) in Hc.
  assert (Hc' : nth (k - 1) cs [] = tab) by exact Hc. clear Hc.
  assert (H : forall i p, nth_error tab (N.to_nat i) = Some p -> vidx (nth (k - 1) cs []) i = Ok p) by (intros i p Hp; rewrite Hc'; apply vidx_ok; exact Hp).
  clear Hc'. revert n L H. induction tab as [|x tab IH] using rev_ind; intros n L H.
  - subst n. constructor.
  - rewrite app_length in L. cbn [length] in L. destruct n as [|n]; [lia|]. unfold seqN. rewrite seq_S, map_app. apply Forall2_app.
    + apply (IH n); [lia|]. intros i p Hp. apply H. rewrite nth_error_app1; [assumption|]. apply nth_error_Some. congruence.
    + constructor; [|constructor]. cbn [Nat.add]. apply H. rewrite Nat2N.id, nth_error_app2 by lia. replace (n - length tab)%nat with 0%nat by lia. reflexivity.
Qed.

Lemma nth_error_firstn' {A} n (l : list A) i : (i < n)%nat -> nth_error (firstn n l) i = nth_error l i.
Proof. revert n i. induction l as [|x l IH]; intros [|n] [|i] H; try reflexivity; try lia. cbn [firstn nth_error]. apply IH. lia. Qed.
Lemma Forall2_nth_l {A B} (P : A -> B -> Prop) l l' i a : Forall2 P l l' -> nth_error l i = Some a -> exists b, nth_error l' i = Some b /\ P a b.
Proof.
  intros H. revert i. induction H as [|x y l l' Hxy H IH]; intros [|i] Hi; try discriminate; [injection Hi as <-; exists y; auto|]. apply IH. exact Hi.
Qed.

(** C76. initializeCenters always succeeds: it stores in every face and cell the centre that computeCenters gives it (an
    edge its midpoint, another element the mean of the centres of its boundary), whatever was stored before, and
    changes nothing else. *)
Theorem C76_initializeCenters : forall u, geo_mesh (u_mesh u) -> no_empty (u_mesh u) ->
  let m := u_mesh u in
  exists cs fc cc, initializeCenters (K := numR) false u = Ok (mkU m fc cc (u_bcc u)) /\
    centers_spec m cs /\ nth_error cs (m_dim m - 2) = Some fc /\ nth_error cs (m_dim m - 1) = Some cc /\
    length fc = length (m_faces m) /\ length cc = length (m_cells m).
Proof.
  intros u G HN m. pose proof (wf_dim _ (geo_wf _ G)) as HD. change (2 <= m_dim m)%nat in HD.
  destruct (C46_centers m G HN) as (cs & E & S & _). pose proof (cs_len _ _ S) as L.
  destruct (nth_error cs (m_dim m - 2)) as [fc|] eqn:Ef; [|apply nth_error_None in Ef; nr; lia].
  destruct (nth_error cs (m_dim m - 1)) as [cc|] eqn:Ec; [|apply nth_error_None in Ec; nr; lia].
  pose proof (proj1 (cs_tab _ _ S _ _ Ef)) as Lf. pose proof (proj1 (cs_tab _ _ S _ _ Ec)) as Lc.
  replace (Datatypes.S (m_dim m - 2)) with (m_dim m - 1)%nat in Lf by lia. replace (Datatypes.S (m_dim m - 1)) with (m_dim m) in Lc by lia.
  assert (EF : n_elems m (m_dim m - 1) = length (m_faces m)) by (apply n_elems_face; exact HD). pose proof (eq_trans Lf EF) as Lf'. clear Lf EF. rename Lf' into Lf.
  assert (EC : n_elems m (m_dim m) = length (m_cells m)).
  { unfold n_elems. rewrite Nat.eqb_refl. destruct (Nat.eqb_spec (m_dim m) 0); [lia|reflexivity]. }
  pose proof (eq_trans Lc EC) as Lc'. clear Lc EC. rename Lc' into Lc.
  exists cs, fc, cc. splits; try assumption; try reflexivity.
  unfold initializeCenters. fold m. refine (eq_trans (f_equal (fun o => bind o _) E) _). cbn [bind].
  rewrite (centerAt_tab cs (m_dim m - 1) fc (length (m_faces m))); [|replace (m_dim m - 1 - 1)%nat with (m_dim m - 2)%nat by lia; exact Ef|exact Lf].
  cbn [bind]. rewrite (centerAt_tab cs (m_dim m) cc (length (m_cells m)) Ec Lc). reflexivity.
Qed.
Print Assumptions C76_initializeCenters.

(** C76. setupBoundaryCells followed by setupBoundaryCellsCenters: succeeds as soon as the boundary cells that existed before
    belong to faces of the mesh; every side that had no cell gets a boundary cell whose centre is the centre of the
    face; the centres of faces and cells stay. *)
Theorem C76_boundary_centers : forall u : UMesh numR, let m := u_mesh u in
  length (u_fc u) = length (m_faces m) -> (forall b, In b (m_bcells m) -> (snd b < N.of_nat (length (m_faces m)))%N) ->
  (N.of_nat (length (m_bcells m) + 2 * length (m_faces m)) < 2 ^ 63 - 1)%N ->
  exists bcc, let u' := mkU (setupBoundaryCells m) (u_fc u) (u_cc u) bcc in
    setupBoundaryCenters (setupBoundary u) = Ok u' /\ length bcc = length (m_bcells (u_mesh u')) /\
    (forall n b, nth_error (m_bcells (u_mesh u')) n = Some b -> nth_error bcc n = nth_error (u_fc u) (N.to_nat (snd b))) /\
    forall f s, side m f s = Some INVALID -> exists n, (N.of_nat n < 2 ^ 63)%N /\
      side (u_mesh u') f s = Some (bcode n) /\ nth_error bcc n = nth_error (u_fc u) f.
Proof.
  intros u m Lf Hb Hn.
  destruct (C06_setupBoundaryCells _ m Hn) as (ND & Hmiss & _ & _ & Hnew & (Hold & Hlen) & Lfaces & _). cbv zeta in *.
  set (m' := setupBoundaryCells m) in *. set (nb := length (m_bcells m)) in *.
  pose proof (missing_length (m_faces m) 0) as ML. change (missing_from 0 (m_faces m)) with (missing_sides m) in ML.
  assert (Hb' : forall n b, nth_error (m_bcells m') n = Some b -> (snd b < N.of_nat (length (m_faces m)))%N).
  { intros n b Hnb. destruct (Nat.lt_ge_cases n nb) as [Hlt|Hge].
    - apply Hb. rewrite <- Hold. eapply nth_error_In with (n := n). rewrite nth_error_firstn'; assumption.
    - assert (n < length (m_bcells m'))%nat by (apply nth_error_Some; congruence).
      destruct (nth_error (missing_sides m) (n - nb)) as [[i s]|] eqn:Em.
      + destruct (Hnew _ _ _ Em) as [_ Q]. replace (nb + (n - nb))%nat with n in Q by lia. rewrite Q in Hnb. injection Hnb as <-. cbn [snd].
        apply nth_error_In in Em. apply Hmiss in Em. unfold side in Em. destruct (nth_error (m_faces m) i) eqn:Ei; [|discriminate].
        assert (i < length (m_faces m))%nat by (apply nth_error_Some; congruence). lia.
      + apply nth_error_None in Em. lia. }
  assert (E : exists bcc, mapM (fun b : N * N => vat (u_fc u) (snd b)) (m_bcells m') = Ok bcc).
  { assert (Hin : forall b, In b (m_bcells m') -> (snd b < N.of_nat (length (m_faces m)))%N) by (intros b Hi; apply In_nth_error in Hi as (n & Hi); eauto).
    clear -Hin Lf. induction (m_bcells m') as [|b l IH]; [exists []; reflexivity|]. destruct IH as (bcc & E); [intros; apply Hin; right; assumption|].
    assert (Hv : exists p, vat (u_fc u) (snd b) = Ok p).
    { specialize (Hin b (or_introl eq_refl)). destruct (nth_error (u_fc u) (N.to_nat (snd b))) as [p|] eqn:Ep; [exists p; apply vat_ok; assumption|].
      apply nth_error_None in Ep. nr. lia. }
    destruct Hv as (p & Hp). exists (p :: bcc). cbn [mapM]. rewrite Hp. cbn [bind]. rewrite E. reflexivity. }
  destruct E as (bcc & E). exists bcc. split.
  { unfold setupBoundaryCenters, setupBoundary. cbn [u_mesh u_fc u_cc]. fold m m'. rewrite E. reflexivity. }
  apply mapM_ok in E.
  assert (P : forall n b, nth_error (m_bcells m') n = Some b -> nth_error bcc n = nth_error (u_fc u) (N.to_nat (snd b))).
  { intros n b Hnb. destruct (Forall2_nth_l _ _ _ _ _ E Hnb) as (p & Hp & Hv). apply vat_ok in Hv. rewrite Hp. symmetry. exact Hv. }
  splits.
  - symmetry. eapply Forall2_length'. exact E.
  - exact P.
  - intros f s Hs. apply Hmiss in Hs. apply In_nth_error in Hs as (n & Hs). destruct (Hnew _ _ _ Hs) as [Q1 Q2]. exists (nb + n)%nat. splits.
    + assert (n < length (missing_sides m))%nat by (apply nth_error_Some; congruence). lia.
    + exact Q1.
    + rewrite (P _ _ Q2). cbn [snd]. rewrite Nat2N.id. reflexivity.
Qed.
Print Assumptions C76_boundary_centers.

(** C76. setupBoundaryCells alone: the centres of the boundary cells there were stay, the new ones are the origin until
    setupBoundaryCellsCenters is called. *)
Theorem C76_boundary_without_centers : forall (K : Num) (u : UMesh K), let m := u_mesh u in
  length (u_bcc u) = length (m_bcells m) ->
  let u' := setupBoundary u in
  u_mesh u' = setupBoundaryCells m /\ u_fc u' = u_fc u /\ u_cc u' = u_cc u /\ length (u_bcc u') = length (m_bcells (u_mesh u')) /\
  (forall n, (n < length (m_bcells m))%nat -> nth_error (u_bcc u') n = nth_error (u_bcc u) n) /\
  (forall n p, (length (m_bcells m) <= n)%nat -> nth_error (u_bcc u') n = Some p -> p = repeat nzero (m_dim m)).
Proof.
  intros K u m L u'. unfold u', setupBoundary. fold m. cbn [u_mesh u_fc u_cc u_bcc]. rewrite app_length, repeat_length, L.
  assert (LE : (length (m_bcells m) <= length (m_bcells (setupBoundaryCells m)))%nat) by (unfold setupBoundaryCells; change 0%N with (N.of_nat 0); rewrite setupLoop_spec; cbn [m_bcells]; rewrite app_length; lia).
  splits; auto; [lia| |].
  - intros n Hn. apply nth_error_app1. fold m in L. lia.
  - intros n p Hn H. rewrite nth_error_app2 in H by lia. apply nth_error_In, repeat_spec in H. rewrite H. unfold zeroV. f_equal. apply (proj1 (setup_rest m)).
Qed.
Print Assumptions C76_boundary_without_centers.
Lemma center_levels_len {K : Num} tess d (m : Mesh (vec K)) : forall steps k sub tabs, center_levels tess d m steps k sub = Ok tabs ->
  forall j, (j < steps)%nat -> length (nth j tabs []) = n_elems m (k + j).
Proof.
  assert (ML : forall X Y (f : X -> outcome Y) l r, mapM f l = Ok r -> length r = length l).
  { intros X Y f l r H. apply mapM_ok in H. symmetry. eapply Forall2_length'. exact H. }
  assert (SL : forall n, length (seqN n) = n) by (intros n; unfold seqN; rewrite map_length; apply seq_length).
  induction steps as [|s IH]; intros k sub tabs H j Hj; [lia|]. cbn [center_levels] in H. apply bind_ok in H as (l & Hl & H).
  apply bind_ok in H as (r & Hr & H). injection H as <-. destruct j as [|j]; cbn [nth].
  - rewrite Nat.add_0_r. destruct (tess && (k =? 2) && (m_dim m =? 3))%nat eqn:E.
    + apply andb_true_iff in E as [E _]. apply andb_true_iff in E as [_ E]. apply Nat.eqb_eq in E. subst k.
      unfold tess_face_centers in Hl. apply bind_ok in Hl as (c0 & _ & Hl). apply ML in Hl. rewrite Hl, SL. reflexivity.
    + unfold center_level in Hl. apply ML in Hl. rewrite Hl, SL. reflexivity.
  - rewrite (IH _ _ _ Hr) by lia. f_equal. lia.
Qed.
Lemma centers_cells {K : Num} tess (m : Mesh (vec K)) cs : (2 <= m_dim m)%nat -> computeCenters tess m = Ok cs ->
  length (nth (m_dim m - 1) cs []) = length (m_cells m).
Proof.
  intros HD H. unfold computeCenters in H. apply bind_ok in H as (e & _ & H). apply bind_ok in H as (r & H & E). injection E as <-.
  replace (m_dim m - 1)%nat with (S (m_dim m - 2)) by lia. cbn [nth]. rewrite (center_levels_len _ _ _ _ _ _ _ H) by lia.
  replace (2 + (m_dim m - 2))%nat with (m_dim m) by lia. unfold n_elems. rewrite Nat.eqb_refl. destruct (Nat.eqb_spec (m_dim m) 0); [lia|reflexivity].
Qed.

(** C76. For any type of coordinates and any stored centres: adding the boundary cells (and giving them centres) changes neither
    the measures nor the normals, with either method, nor what initializeCenters stores. *)
Theorem C76_geometry_kept : forall (K : Num) (tess : bool) (u : UMesh K) bcc, let m := u_mesh u in
  (2 <= m_dim m)%nat -> (N.of_nat (length (m_cells m)) <= 2 ^ 63)%N -> length (u_cc u) = length (m_cells m) ->
  let u' := mkU (setupBoundaryCells m) (u_fc u) (u_cc u) bcc in
  elementMeasures tess u' = elementMeasures tess u /\ faceNormals tess u' = faceNormals tess u /\
  (forall fc cc b, initializeCenters tess u = Ok (mkU m fc cc b) ->
     initializeCenters tess u' = Ok (mkU (setupBoundaryCells m) fc cc bcc)).
Proof.
  intros K tess u bcc m HD HC Hcc u'. pose proof (setup_rest m) as (D & _ & _ & C).
  splits.
  - unfold elementMeasures. subst u'. cbn [u_mesh u_cc u_fc]. rewrite D. fold m.
    destruct (m_dim m) as [|[|[|[|d]]]] eqn:E; try lia.
    + rewrite setup_measures2 by assumption. reflexivity.
    + rewrite setup_measures3 by assumption. reflexivity.
    + rewrite setup_centers by (lia || assumption). apply bind_ext. intros cs. apply setup_measuresN; [lia|assumption].
  - unfold faceNormals. subst u'. cbn [u_mesh u_cc u_fc]. rewrite D. fold m.
    destruct (m_dim m) as [|[|[|[|d]]]] eqn:E; try lia.
    + apply setup_normals2.
    + destruct tess; [apply setup_normals3_tess; [assumption|]|apply setup_normals3]; rewrite Hcc; assumption.
    + rewrite setup_centers by (lia || assumption). destruct (computeCenters tess m) as [cs| | |] eqn:EC; try reflexivity. cbn [bind].
      apply setup_normalsN. rewrite (centers_cells tess m cs) by (assumption || lia). assumption.
  - intros fc cc b H. unfold initializeCenters in *. subst u'. cbn [u_mesh u_bcc] in *. fold m in H. rewrite D, C, setup_faces, faces_after_length.
    rewrite setup_centers by (lia || assumption). destruct (computeCenters tess m) as [cs| | |]; try discriminate H. cbn [bind] in *.
    destruct (mapM (centerAt cs (m_dim m - 1)) (seqN (length (m_faces m)))) as [x| | |]; try discriminate H. cbn [bind] in *.
    destruct (mapM (centerAt cs (m_dim m)) (seqN (length (m_cells m)))) as [y| | |]; try discriminate H. cbn [bind] in *.
    injection H as -> -> _. reflexivity.
Qed.
Print Assumptions C76_geometry_kept.

Lemma bcode_pow n : (N.of_nat n < 2 ^ 63)%N -> bcode n = (2 ^ 63 + N.of_nat n)%N.
Proof.
  intros H. unfold bcode, makeBoundaryIndex. rewrite boundary_pow. change (64 - 1)%N with 63%N.
  rewrite <- N.lxor_lor, N.add_nocarry_lxor; try reflexivity;
    (apply N.bits_inj; intros k; rewrite N.land_spec, N.bits_0, N.pow2_bits_eqb;
     destruct (N.eqb_spec 63 k) as [<-|]; [apply (testbit_lt _ 63); [assumption|lia]|reflexivity]).
Qed.
Lemma list_ext {A} (l l' : list A) : length l = length l' -> (forall i a b, nth_error l i = Some a -> nth_error l' i = Some b -> a = b) -> l = l'.
Proof.
  revert l'. induction l as [|x l IH]; intros [|y l'] L H; try discriminate; [reflexivity|]. f_equal; [apply (H 0%nat); reflexivity|].
  apply IH; [simpl in L; lia|]. intros i. apply (H (S i)).
Qed.
Lemma diff_opp p q : length p = length q -> diff p q = map Ropp (diff q p).
Proof. revert q. induction p as [|x p IH]; intros [|y q] L; try discriminate; [reflexivity|]. simpl. rewrite (IH q) by (simpl in L; lia). f_equal. ring. Qed.

(** C76. In a mesh without boundary cells, each side of a face being a cell or nothing: adding boundary cells with their centres does
    not change the distances across faces; it changes the direction of the centre difference of exactly the faces without a
    left cell (from then on it goes from the left to the right side everywhere). *)
Theorem C76_distances_kept : forall u : UMesh numR, let m := u_mesh u in
  m_bcells m = [] -> (N.of_nat (2 * length (m_faces m)) < 2 ^ 63 - 1)%N -> (N.of_nat (length (m_cells m)) <= 2 ^ 63)%N ->
  length (u_fc u) = length (m_faces m) -> length (u_cc u) = length (m_cells m) ->
  (forall p, In p (u_fc u) \/ In p (u_cc u) -> length p = m_dim m) ->
  (forall f s c, side m f s = Some c -> c = INVALID \/ (c < N.of_nat (length (m_cells m)))%N) ->
  exists u' ds vs vs', setupBoundaryCenters (setupBoundary u) = Ok u' /\
    cellDistances u = Ok ds /\ cellDistances u' = Ok ds /\ length ds = length (m_faces m) /\
    cellDifferences u = Ok vs /\ cellDifferences u' = Ok vs' /\ length vs = length (m_faces m) /\ length vs' = length (m_faces m) /\
    forall f v v', nth_error vs f = Some v -> nth_error vs' f = Some v' ->
      v' = if match side m f SLeft with Some c => N.eqb c INVALID | None => false end then map Ropp v else v.
Proof.
  intros u m Hb Hn HC Lf Lc Ld Hs.
  destruct (C76_boundary_centers u Lf) as (bcc & E & _ & _ & Hm).
  { fold m. rewrite Hb. intros b []. }
  { fold m. rewrite Hb. simpl length. rewrite Nat.add_0_l. exact Hn. }
  fold m in E, Hm. cbn [u_mesh] in Hm. set (m' := setupBoundaryCells m) in *.
  assert (Hh : has_bcells m = false) by exact (f_equal (fun l : list (N * N) => match l with [] => false | _ => true end) Hb).
  pose proof (setup_rest m) as (D & _). change (m_dim m' = m_dim m) in D.
  assert (LF : length (m_faces m') = length (m_faces m)) by (unfold m'; rewrite setup_faces; apply faces_after_length).
  assert (F : forall f face', nth_error (m_faces m') f = Some face' -> exists face, nth_error (m_faces m) f = Some face /\
    forall s, (cellOn face s <> INVALID /\ cellOn face' s = cellOn face s /\ (cellOn face s < N.of_nat (length (m_cells m)))%N) \/
              (cellOn face s = INVALID /\ m_bcells m' <> [] /\
               exists n, (N.of_nat n < 2 ^ 63)%N /\ cellOn face' s = (2 ^ 63 + N.of_nat n)%N /\ nth_error bcc n = nth_error (u_fc u) f)).
  { intros f face' Hf. destruct (setup_face_nth m f face' Hf) as (face & k & Hface & Ek). exists face. split; [assumption|]. intros s.
    destruct (Hs f s (cellOn face s)) as [Hi|Hi]; [unfold side; rewrite Hface; reflexivity| |].
    - right. split; [assumption|].
      assert (Hms : side m f s = Some INVALID) by (unfold side; rewrite Hface; cbn [option_map]; congruence).
      split.
      + intros Hz. assert (In (f, s) (missing_sides m)).
        { destruct (C06_setupBoundaryCells _ m) as (_ & Q & _); [rewrite Hb; exact Hn|]. apply Q. assumption. }
        destruct (C06_setupBoundaryCells _ m) as (_ & _ & _ & _ & _ & (_ & Q) & _); [rewrite Hb; exact Hn|]. cbv zeta in Q. fold m' in Q.
        rewrite Hz, Hb in Q. destruct (missing_sides m); [contradiction|discriminate].
      + destruct (Hm f s Hms) as (n & Hn' & Q & Hp). exists n. split; [assumption|]. split; [|exact Hp].
        unfold side in Q. rewrite Hf in Q. cbn [option_map] in Q. injection Q as Q. rewrite Q. apply bcode_pow. assumption.
    - left. assert (Hne : cellOn face s <> INVALID).
      { intros Q. rewrite Q in Hi. assert (INVALID < 2 ^ 63)%N by (eapply N.lt_le_trans; eassumption). clear -H. vm_compute in H. discriminate. }
      split; [assumption|]. split; [|assumption]. rewrite Ek. unfold face_after.
      apply N.eqb_neq in Hne. destruct s; cbn [cellOn f_conn bc cellLeft cellRight] in *; rewrite Hne; reflexivity. }
  assert (Side : forall f face face' c s, nth_error (m_faces m) f = Some face -> nth_error (m_faces m') f = Some face' ->
    nth_error (u_fc u) f = Some c -> exists p, length p = m_dim m /\
      side_point (u_cc u) (u_bcc u) (has_bcells m) c (cellOn face s) p /\ side_point (u_cc u) bcc (has_bcells m') c (cellOn face' s) p).
  { intros f face face' c s H1 H2 Hc. destruct (F f face' H2) as (face0 & H0 & Q). assert (face0 = face) by congruence. subst face0.
    destruct (Q s) as [(Hne & Eq & Hlt)|(Eq & Hz & n & Hn' & Eq' & Hp)].
    - destruct (nth_error (u_cc u) (N.to_nat (cellOn face s))) as [p|] eqn:Ep; [|apply nth_error_None in Ep; nr; lia].
      exists p. split; [apply Ld; right; eapply nth_error_In; exact Ep|]. rewrite Eq.
      assert (cellOn face s < 2 ^ 63)%N by lia. split; apply sp_cell; assumption.
    - exists c. split; [apply Ld; left; eapply nth_error_In; exact Hc|]. rewrite Eq, Eq'. split.
      + apply sp_face. exact Hh.
      + apply sp_bcell; [|assumption|rewrite Nat2N.id; etransitivity; [exact Hp|exact Hc]]. change (has_bcells m') with (match m_bcells m' with [] => false | _ => true end). destruct (m_bcells m'); [congruence|reflexivity]. }
  assert (Other : forall f face, nth_error (m_faces m) f = Some face -> exists face', nth_error (m_faces m') f = Some face').
  { intros f face H. destruct (nth_error (m_faces m') f) eqn:Q; [eauto|]. apply nth_error_None in Q. assert (f < length (m_faces m))%nat by (apply nth_error_Some; congruence). lia. }
  assert (Other' : forall f face, nth_error (m_faces m') f = Some face -> exists face', nth_error (m_faces m) f = Some face').
  { intros f face H. destruct (nth_error (m_faces m) f) eqn:Q; [eauto|]. apply nth_error_None in Q. assert (f < length (m_faces m'))%nat by (apply nth_error_Some; congruence). lia. }
  assert (S1 : forall f face c, nth_error (m_faces m) f = Some face -> nth_error (u_fc u) f = Some c -> exists p q,
     side_point (u_cc u) (u_bcc u) (has_bcells m) c (cellLeft (bc (f_conn face))) p /\ side_point (u_cc u) (u_bcc u) (has_bcells m) c (cellRight (bc (f_conn face))) q).
  { intros f face c Hf Hc. destruct (Other f face Hf) as (face' & Hf'). destruct (Side f face face' c SLeft Hf Hf' Hc) as (p & _ & Hp & _).
    destruct (Side f face face' c SRight Hf Hf' Hc) as (q & _ & Hq & _). exists p, q. auto. }
  assert (S2 : forall f face c, nth_error (m_faces m') f = Some face -> nth_error (u_fc u) f = Some c -> exists p q,
     side_point (u_cc u) bcc (has_bcells m') c (cellLeft (bc (f_conn face))) p /\ side_point (u_cc u) bcc (has_bcells m') c (cellRight (bc (f_conn face))) q).
  { intros f face' c Hf' Hc. destruct (Other' f face' Hf') as (face & Hf). destruct (Side f face face' c SLeft Hf Hf' Hc) as (p & _ & _ & Hp).
    destruct (Side f face face' c SRight Hf Hf' Hc) as (q & _ & _ & Hq). exists p, q. auto. }
  assert (Lfc : forall c, In c (u_fc u) -> length c = m_dim m) by (intros; apply Ld; auto).
  destruct (C48_distance m (u_cc u) (u_fc u) (u_bcc u) Lf S1) as (ds & E1 & L1 & H1).
  destruct (C48_distance m' (u_cc u) (u_fc u) bcc (eq_trans Lf (eq_sym LF)) S2) as (ds' & E2 & L2 & H2).
  destruct (C48_difference m (u_cc u) (u_fc u) (u_bcc u) Lf Lfc S1) as (vs & E3 & L3 & H3).
  destruct (C48_difference m' (u_cc u) (u_fc u) bcc (eq_trans Lf (eq_sym LF)) (fun c Hc => eq_trans (Lfc c Hc) (eq_sym D)) S2) as (vs' & E4 & L4 & H4).
  assert (Eds : ds' = ds).
  { apply list_ext; [exact (eq_trans L2 (eq_trans LF (eq_sym L1)))|]. intros f d d' Hd Hd'.
    destruct (nth_error (m_faces m) f) as [face|] eqn:Hf; [|apply nth_error_None in Hf; assert (f < length ds)%nat by (apply nth_error_Some; congruence); nr; lia].
    destruct (Other f face Hf) as (face' & Hf').
    destruct (nth_error (u_fc u) f) as [c|] eqn:Hc; [|apply nth_error_None in Hc; assert (f < length ds)%nat by (apply nth_error_Some; congruence); nr; lia].
    destruct (Side f face face' c SLeft Hf Hf' Hc) as (p & _ & Hp & Hp'). destruct (Side f face face' c SRight Hf Hf' Hc) as (q & _ & Hq & Hq').
    rewrite (H1 f face c p q d' Hf Hc Hd' Hp Hq). exact (H2 f face' c p q d Hf' Hc Hd Hp' Hq'). }
  subst ds'. exists (mkU m' (u_fc u) (u_cc u) bcc), ds, vs, vs'. splits.
  - exact E.
  - exact E1.
  - exact E2.
  - exact L1.
  - exact E3.
  - unfold cellDifferences. cbn [u_mesh u_cc u_fc u_bcc]. exact E4.
  - exact L3.
  - exact (eq_trans L4 LF).
  - intros f v v' Hv Hv'.
    destruct (nth_error (m_faces m) f) as [face|] eqn:Hf; [|apply nth_error_None in Hf; assert (f < length vs)%nat by (apply nth_error_Some; congruence); nr; lia].
    destruct (Other f face Hf) as (face' & Hf').
    destruct (nth_error (u_fc u) f) as [c|] eqn:Hc; [|apply nth_error_None in Hc; assert (f < length vs)%nat by (apply nth_error_Some; congruence); nr; lia].
    destruct (Side f face face' c SLeft Hf Hf' Hc) as (p & Lp & Hp & Hp'). destruct (Side f face face' c SRight Hf Hf' Hc) as (q & Lq & Hq & Hq').
    pose proof (H3 f face c p q v Hf Hc Hv Hp Hq) as Ev. pose proof (H4 f face' c p q v' Hf' Hc Hv' Hp' Hq') as Ev'.
    assert (Hni : (cellLeft (bc (f_conn face')) =? INVALID)%N = false).
    { destruct (C06_setupBoundaryCells _ m) as (_ & _ & Q & _); [rewrite Hb; exact Hn|]. apply N.eqb_neq. apply (Q f SLeft). unfold side. fold m'. rewrite Hf'. reflexivity. }
    rewrite Hni, andb_false_r in Ev'. rewrite Hh in Ev. cbn [negb andb] in Ev.
    unfold side. rewrite Hf. cbn [option_map cellOn]. rewrite Ev, Ev'. destruct (cellLeft (bc (f_conn face)) =? INVALID)%N; [|reflexivity].
    apply diff_opp. congruence.
Qed.
Print Assumptions C76_distances_kept.

Lemma sides_check {V} (m : Mesh V) :
  forallb (fun f => forallb (fun s => N.eqb (cellOn f s) INVALID || N.ltb (cellOn f s) (N.of_nat (length (m_cells m)))) [SLeft; SRight]) (m_faces m) = true ->
  forall f s c, side m f s = Some c -> c = INVALID \/ (c < N.of_nat (length (m_cells m)))%N.
Proof.
  intros Q f s c H. unfold side in H. destruct (nth_error (m_faces m) f) as [face|] eqn:En; [|discriminate]. injection H as <-.
  rewrite forallb_forall in Q. specialize (Q face (nth_error_In _ _ En)). rewrite forallb_forall in Q.
  specialize (Q s ltac:(destruct s; simpl; auto)). apply orb_true_iff in Q as [Q|Q]; [left; apply N.eqb_eq; assumption|right; apply N.ltb_lt; assumption].
Qed.
(** Non-vacuity: two prisms with a common face; after initializeCenters all assumptions above hold. *)
Example C76_instance : exists u : UMesh numR, initializeCenters (K := numR) false (fresh (K := numR) prismsR) = Ok u /\
  let m := u_mesh u in
  geo_mesh m /\ no_empty m /\ m_bcells m = [] /\ (N.of_nat (2 * length (m_faces m)) < 2 ^ 63 - 1)%N /\ (N.of_nat (length (m_cells m)) <= 2 ^ 63)%N /\
  length (u_fc u) = length (m_faces m) /\ length (u_cc u) = length (m_cells m) /\
  (forall p, In p (u_fc u) \/ In p (u_cc u) -> length p = m_dim m) /\
  (forall f s c, side m f s = Some c -> c = INVALID \/ (c < N.of_nat (length (m_cells m)))%N) /\
  side m 0 SRight = Some INVALID /\ m_faces (setupBoundaryCells m) <> m_faces m.
Proof.
  destruct prismsR_geo as [G HN].
  destruct (C76_initializeCenters (fresh (K := numR) prismsR) G HN) as (cs & fc & cc & E & S & Hf & Hc & Lf & Lc). eexists. split; [exact E|].
  cbn [u_mesh fresh u_fc u_cc] in *. cbv zeta. splits; try assumption; try reflexivity.
  - discriminate.
  - intros p [H|H]; [eapply (proj2 (cs_tab _ _ S _ _ Hf)); exact H|eapply (proj2 (cs_tab _ _ S _ _ Hc)); exact H].
  - apply sides_check. vm_compute. reflexivity.
  - intros H. apply (f_equal (fun l : list Face => match l with f :: _ => cellRight (bc (f_conn f)) | [] => 0%N end)) in H. vm_compute in H. discriminate.
Qed.

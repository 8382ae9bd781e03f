(** C111, exactly: which planar VTK files are written again with the same rows. *)
From Coq Require Import String Ascii QArith.
From Verif Require Import P_Base M_Conn S_Conn P_Conn M_Mesh S_Mesh M_Text M_Apply P_Apply M_FPMA S_FPMA P_Poly P_FPMA P_FPMAWrite T_FPMA
  M_VTK S_VTK P_Bnd P_VTK T_VTK M_VTKWrite P_VTKWrite T_VTKWrite S_Rewrite T_Rewrite Ex_Mesh Ex_VTK.
Local Open Scope nat_scope.
Local Open Scope list_scope.

(** * The text of the section determines the rows *)
Lemma nums_inj {C} (l l' : list N) (r r' : list (vtok C)) : map (fun x => Vn x) l ++ Vnl :: r = map (fun x => Vn x) l' ++ Vnl :: r' -> l = l' /\ r = r'.
Proof.
  revert l'. induction l as [|x l IH]; intros [|y l'] H; cbn in H; try discriminate; injection H as H.
  - auto.
  - subst y. destruct (IH _ H0) as [-> ->]. auto.
Qed.
Lemma rows_inj {C} (cs cs' : list (list N)) : flat_map (@row C) cs = flat_map (@row C) cs' -> cs = cs'.
Proof.
  revert cs'. induction cs as [|c cs IH]; intros [|c' cs'] H; cbn in H; try discriminate; [reflexivity|].
  injection H as _ H. rewrite <- !app_assoc in H. cbn [app] in H. apply nums_inj in H as [-> H]. f_equal. apply IH. exact H.
Qed.
Lemma body_inj {C} (p : list (C * C * C)) cs cs' t : length cs = length cs' -> vtk_body (mkVtk p cs t) = vtk_body (mkVtk p cs' t) -> cs = cs'.
Proof.
  intros L H. unfold vtk_body in H. cbn [vf_pts vf_cells vf_types] in H. apply app_inv_head in H. apply app_inv_tail in H.
  unfold cells_section in H. cbn [app] in H. injection H as _ _ H. apply app_inv_tail in H. exact (rows_inj _ _ H).
Qed.

(** The first cell that has an edge is the one of the lowest index. *)
Lemma listing_first cells e x y : nth_error (listing cells e) 0 = Some x -> In y (listing cells e) -> (x <= y)%N.
Proof.
  unfold listing. generalize (fun c => existsb (N.eqb e) (nth (N.to_nat c) cells [])) as f. intros f. generalize (length cells) as n.
  induction n as [|n IH]; [discriminate|]. rewrite seqN_S, filter_app. intros Hx Hy. apply in_app_or in Hy. destruct (filter f (seqN n)) as [|z l] eqn:El.
  - destruct Hy as [[]|Hy]. cbn [app] in Hx. cbn [filter] in Hx, Hy. destruct (f (N.of_nat n)); [|destruct Hy].
    destruct Hy as [<-|[]]. injection Hx as <-. lia.
  - cbn [app nth_error] in Hx. injection Hx as ->. destruct Hy as [Hy|Hy]; [apply IH; auto|].
    assert (K : In x (filter f (seqN n))) by (rewrite El; left; reflexivity). apply filter_In in K as [K _]. apply in_seqN in K.
    cbn [filter] in Hy. destruct (f (N.of_nat n)); [|destruct Hy]. destruct Hy as [<-|[]]. lia.
Qed.

Lemma first_side v0 v1 r : polygon (v0 :: v1 :: r) -> side (v0 :: v1 :: r) 0 v0 v1.
Proof. intros [_ L]. split; [reflexivity|]. cbn [length] in *. rewrite Nat.mod_small by lia. reflexivity. Qed.
Lemma not_both vs i j a b : polygon vs -> side vs i a b -> side vs j b a -> False.
Proof.
  intros P H H'. destruct (one_direction vs i j a b b a P H H' (or_intror (conj eq_refl eq_refl))) as [Q _]. exact (side_ne _ _ _ _ P H Q).
Qed.

Theorem C111_vtk2_iff : forall C (F : vtk_file C) l1 l2 rest (m0 : Mesh (C * C)) old zero,
  grid2_ok F -> one_line l1 -> one_line l2 -> m_dim m0 = 2 -> m_mid m0 = [] ->
  exists m types, loadVTK2 (vtk_header l1 l2 ++ vtk_body F ++ rest) m0 old = Ok (m, types) /\
    forall types' codes', Forall2 (fun t n => vtkCode2 t = Some n) types' codes' -> length types' = length (vf_cells F) ->
      exists rows, writeVTK2 zero m types' = Ok (vtk_body (mkVtk (map (fun p => (fst p, zero)) (vf_pts F)) rows codes')) /\
        Forall2 same_polygon (vf_cells F) rows /\
        (writeVTK2 zero m types' = Ok (vtk_body (mkVtk (map (fun p => (fst p, zero)) (vf_pts F)) (vf_cells F) codes')) <-> starts_fresh (vf_cells F)).
Proof.
  intros C F l1 l2 rest m0 old zero G H1 H2 HD HM.
  destruct (C24_vtk2_read F l1 l2 rest m0 old G H1 H2 HD HM) as (m & types & ess & E & _ & _ & V & LC & S & R & Un & _ & Lst & Dir).
  exists m, types. split; [exact E|]. apply Forall2_nth in S as [LS S].
  (* the row written for a cell *)
  assert (Row : forall c vs, nth_error (vf_cells F) (N.to_nat c) = Some vs -> exists v0 v1 r vs' e0 es f a b, vs = v0 :: v1 :: r /\ polygon vs /\
    indexCell m c = Ok vs' /\ same_polygon vs vs' /\ nth_error ess (N.to_nat c) = Some es /\ In e0 es /\ nth_error (m_faces m) (N.to_nat e0) = Some f /\
    joins (edges2 m) e0 v0 v1 /\ f_subs f = [a; b] /\ ([a; b] = [v0; v1] \/ [a; b] = [v1; v0]) /\
    firstn 2 vs' = if (cellLeft (bc (f_conn f)) =? c)%N then [a; b] else [b; a]).
  { intros c vs Hc. assert (Hl : N.to_nat c < length ess) by (rewrite LS; apply nth_error_Some; congruence).
    destruct (nth_error ess (N.to_nat c)) as [es|] eqn:Es; [|apply nth_error_None in Es; lia].
    pose proof (S _ _ _ Es Hc) as Sd. pose proof (R c es Es) as Rg. pose proof (g2_poly _ G vs (nth_error_In _ _ Hc)) as P.
    assert (B : bounds (edges2 m) es vs).
    { split; [exact P|]. exists es. split; [apply Permutation_refl|]. split; [|exact Sd]. destruct Rg as (? & ? & _ & _ & _ & ND). exact ND. }
    destruct (indexCell_spec m c es vs Rg B) as (vs' & e0 & f & a & b & Ei & SP & He0 & Hf & Hs & Hd).
    destruct vs as [|v0 [|v1 r]]; [destruct P; simpl in *; lia|destruct P; simpl in *; lia|].
    pose proof (first_side _ _ _ P) as S0. destruct Sd as [_ Sd]. specialize (Sd 0 e0 v0 v1 He0 S0).
    exists v0, v1, r, vs', e0, es, f, a, b. do 5 (split; [assumption || reflexivity|]). split; [eapply nth_error_In; exact He0|]. do 3 (split; [assumption|]). split; [|exact Hd].
    unfold joins, edges2 in Sd. rewrite nth_error_map, Hf in Sd. cbn [option_map] in Sd. rewrite Hs in Sd. destruct Sd as [Q|Q]; injection Q as -> ->; auto. }
  (* the left cell of an edge comes first *)
  assert (Lft : forall e f c es, nth_error (m_faces m) (N.to_nat e) = Some f -> nth_error ess (N.to_nat c) = Some es -> In e es ->
    nth_error (listing ess e) 0 = Some (cellLeft (bc (f_conn f))) /\ (cellLeft (bc (f_conn f)) <= c)%N).
  { intros e f c es Hf Hes Hin. destruct (Lst _ _ Hf) as (A & _ & _). rewrite N2Nat.id in A.
    assert (Inc : In c (listing ess e)) by (apply in_listing; eauto).
    destruct (listing ess e) as [|x l] eqn:El; [destruct Inc|]. cbn [nth] in A. rewrite A. split; [reflexivity|].
    apply (listing_first ess e x c); rewrite El; [reflexivity|exact Inc]. }
  assert (T : exists rows, mapM (indexCell m) (seqN (length (m_cells m))) = Ok rows).
  { apply mapM_ex. intros c Hc. apply in_seqN in Hc. destruct (nth_error (vf_cells F) (N.to_nat c)) as [vs|] eqn:Ec; [|apply nth_error_None in Ec; lia].
    destruct (Row c vs Ec) as (? & ? & ? & vs' & ? & ? & ? & ? & ? & _ & _ & Ei & _). eauto. }
  destruct T as [rows ER]. pose proof ER as EM. apply mapM_ok in EM. apply Forall2_nth in EM as [LR EM]. rewrite seqN_length in LR.
  assert (At : forall c vs, nth_error rows (N.to_nat c) = Some vs -> indexCell m c = Ok vs).
  { intros c vs Hc. assert (Hl : N.to_nat c < length rows) by (apply nth_error_Some; congruence).
    specialize (EM (N.to_nat c) (N.of_nat (N.to_nat c)) vs). rewrite nth_error_seqN in EM by lia. specialize (EM eq_refl Hc). rewrite N2Nat.id in EM. exact EM. }
  intros types' codes' HT HL. exists rows.
  assert (W : writeVTK2 zero m types' = Ok (vtk_body (mkVtk (map (fun p => (fst p, zero)) (vf_pts F)) rows codes'))).
  { unfold writeVTK2, indexMesh2. rewrite ER. cbn [bind].
    rewrite (emit2_spec m zero types' codes' HT (eq_trans HL (eq_sym LC)) rows (eq_sym LR)).
    unfold written2. rewrite V, map_map. do 3 f_equal. apply map_ext. intros [[x y] z]. reflexivity. }
  split; [exact W|]. split.
  { apply Forall2_nth. split; [congruence|]. intros i vs vs' Hc Hr. rewrite <- (Nat2N.id i) in Hc, Hr.
    destruct (Row _ _ Hc) as (? & ? & ? & vs2 & ? & ? & ? & ? & ? & _ & _ & Ei & SP & _). rewrite (At _ _ Hr) in Ei. injection Ei as <-. exact SP. }
  rewrite W. split.
  - (* the same rows: no earlier polygon runs along the first side *)
    intros Q. assert (QB : vtk_body (mkVtk (map (fun p => (fst p, zero)) (vf_pts F)) rows codes') = vtk_body (mkVtk (map (fun p => (fst p, zero)) (vf_pts F)) (vf_cells F) codes')) by congruence.
    apply body_inj in QB; [|congruence]. subst rows. clear Q.
    intros c c' vs u j a b r Hcc Hc Hu -> Su. rewrite <- (Nat2N.id c) in Hc. rewrite <- (Nat2N.id c') in Hu.
    destruct (Row _ _ Hc) as (v0 & v1 & r1 & vs2 & e0 & es & f & x & y & Ev & P & Ei & _ & Hes & Hin & Hf & J & Hs & D & Fn). injection Ev as <- <- <-.
    rewrite (At _ _ Hc) in Ei. injection Ei as <-. cbn [firstn] in Fn.
    destruct (Row _ _ Hu) as (? & ? & ? & ? & ? & es' & ? & ? & ? & _ & P' & _ & _ & Hes' & _).
    assert (K : In e0 es').
    { assert (Hk : j < length es') by (rewrite (proj1 (S _ _ _ Hes' Hu)); apply nth_error_Some; destruct Su; congruence).
      destruct (nth_error es' j) as [e'|] eqn:Ee; [|apply nth_error_None in Ee; lia].
      rewrite (Un e0 e' a b J (proj2 (S _ _ _ Hes' Hu) _ _ _ _ Ee Su)). eapply nth_error_In; exact Ee. }
    destruct (Lft _ _ _ _ Hf Hes' K) as [L0 Le]. destruct (N.eqb_spec (cellLeft (bc (f_conn f))) (N.of_nat c)) as [Q|Q]; [lia|]. injection Fn as -> ->.
    destruct (Dir _ _ Hf) as (w & k & x' & y' & Hw & Sw & Hs'). rewrite Hs in Hs'. injection Hs' as <- <-.
    assert (QL : cellLeft (bc (f_conn f)) = N.of_nat c').
    { destruct (Lst _ _ Hf) as (_ & _ & Two). rewrite N2Nat.id in Two.
      assert (I1 : In (N.of_nat c) (listing ess e0)) by (apply in_listing; eauto). assert (I2 : In (N.of_nat c') (listing ess e0)) by (apply in_listing; eauto).
      destruct (listing ess e0) as [|l0 [|l3 [|l4 l]]]; [discriminate| | |simpl in Two; lia]; injection L0 as L0; rewrite L0 in *; cbn in I1, I2;
        [lia|destruct I1 as [I1|[I1|[]]]; destruct I2 as [I2|[I2|[]]]; lia]. }
    rewrite QL in Hw. assert (w = u) by congruence. subst w. exact (not_both u j k _ _ P' Su Sw).
  - intros Fr. do 3 f_equal. apply nth_error_ext. intros i. destruct (nth_error (vf_cells F) i) as [vs|] eqn:Hc.
    2:{ apply nth_error_None in Hc. apply nth_error_None. lia. }
    destruct (nth_error rows i) as [vs'|] eqn:Hr; [|apply nth_error_None in Hr; assert (i < length (vf_cells F)) by (apply nth_error_Some; congruence); lia]. f_equal.
    pose proof Hc as Hc0. rewrite <- (Nat2N.id i) in Hc, Hr.
    destruct (Row _ _ Hc) as (v0 & v1 & r & vs2 & e0 & es & f & x & y & Ev & P & Ei & SP & Hes & Hin & Hf & J & Hs & D & Fn).
    rewrite (At _ _ Hr) in Ei. injection Ei as <-. subst vs.
    assert (FN : firstn 2 vs' = [v0; v1]).
    { destruct (Lft _ _ _ _ Hf Hes Hin) as [_ Le]. destruct (Dir _ _ Hf) as (w & k & x' & y' & Hw & Sw & Hs'). rewrite Hs in Hs'. injection Hs' as <- <-.
      rewrite Fn. destruct (N.eqb_spec (cellLeft (bc (f_conn f))) (N.of_nat i)) as [Q|Q]; destruct D as [D|D]; injection D as -> ->; try reflexivity; exfalso.
      - rewrite Q, Hc in Hw. injection Hw as <-. exact (not_both _ _ _ _ _ P (first_side _ _ _ P) Sw).
      - refine (Fr i _ _ w k v0 v1 r _ Hc0 Hw eq_refl Sw). lia. }
    destruct vs' as [|a [|b r']]; [discriminate FN|discriminate FN|]. injection FN as -> ->. rewrite (same_head v0 v1 r r' P SP). reflexivity.
Qed.
Print Assumptions C111_vtk2_iff.

(** Alike oriented polygons have fresh first sides; not conversely (the second instance below). *)
Lemma oriented_fresh cells : (forall vs, In vs cells -> polygon vs) -> oriented cells -> starts_fresh cells.
Proof.
  intros P O c c' vs vs' j a b r L Hc Hc' -> H. pose proof (P _ (nth_error_In _ _ Hc)) as Pc.
  pose proof (O c c' _ vs' 0 j a b Hc Hc' (first_side _ _ _ Pc) H). lia.
Qed.

(** Two triangles that run along their common side in the same direction, as first side of the second: the second row comes back reversed.
    With the second triangle starting elsewhere the rows are kept although the triangles are oriented differently. *)
Definition twoTri (second : list N) : vtk_file N := mkVtk [(0,0,0); (1,0,0); (1,1,0); (2,3,0)]%N [[0;1;2]%N; second] [5;5]%N.
Lemma twoTri_fine second : polygon second -> length second = 3 -> grid2_ok (twoTri second).
Proof.
  intros P L3. split.
  - intros vs [<-|[<-|[]]]; [split; [nodup_N|simpl; lia]|exact P].
  - intros a b l ND H. transitivity (length (seqN 2)); [|reflexivity]. apply NoDup_incl_length; [exact ND|]. intros c Hc. destruct (H c Hc) as (vs & Hvs & _).
    assert (N.to_nat c < length (vf_cells (twoTri second))) by (apply nth_error_Some; congruence). apply in_seqN. simpl in *. lia.
  - vm_compute. discriminate.
  - cbn [twoTri vf_cells List.concat app length]. rewrite app_length, L3. apply N.leb_le. reflexivity.
  - simpl. lia.
Qed.
Example C111_iff_fails : grid2_ok (twoTri [0;1;3]%N) /\ ~ starts_fresh (vf_cells (twoTri [0;1;3]%N)) /\
  exists m types, loadVTK2 (header2 ++ vtk_body (twoTri [0;1;3]%N)) (emptyMesh 2) [] = Ok (m, types) /\
    writeVTK2 0%N m types = Ok (vtk_body (twoTri [1;0;3]%N)).
Proof.
  split; [apply twoTri_fine; [split; [nodup_N|simpl; lia]|reflexivity]|]. split.
  - intros H. apply (H 1 0 [0;1;3]%N [0;1;2]%N 0 0%N 1%N [3]%N); [lia|reflexivity|reflexivity|reflexivity|split; reflexivity].
  - destruct (loadVTK2 (header2 ++ vtk_body (twoTri [0;1;3]%N)) (emptyMesh 2) []) as [[m types]| | |] eqn:E; [|vm_compute in E; discriminate..].
    exists m, types. split; [reflexivity|]. vm_compute in E. injection E as <- <-. vm_compute. reflexivity.
Qed.
Example C111_iff_holds : grid2_ok (twoTri [3;0;1]%N) /\ starts_fresh (vf_cells (twoTri [3;0;1]%N)) /\ ~ oriented (vf_cells (twoTri [3;0;1]%N)) /\
  exists m types, loadVTK2 (header2 ++ vtk_body (twoTri [3;0;1]%N)) (emptyMesh 2) [] = Ok (m, types) /\
    writeVTK2 0%N m types = Ok (vtk_body (twoTri [3;0;1]%N)).
Proof.
  split; [apply twoTri_fine; [split; [nodup_N|simpl; lia]|reflexivity]|]. split; [|split].
  - intros c c' vs vs' j a b r L Hc Hc' -> [Sa Sb]. destruct c as [|[|c]]; [lia| |destruct c; discriminate Hc].
    destruct c' as [|c']; [|lia]. injection Hc as <- <- _. injection Hc' as <-. destruct j as [|[|[|j]]]; try discriminate Sa; try (destruct j; discriminate Sa).
  - intros O. assert (Q : 0 = 1); [|discriminate Q]. apply (O 0 1 [0;1;2]%N [3;0;1]%N 0 1 0%N 1%N); [reflexivity|reflexivity|split; reflexivity|split; reflexivity].
  - destruct (loadVTK2 (header2 ++ vtk_body (twoTri [3;0;1]%N)) (emptyMesh 2) []) as [[m types]| | |] eqn:E; [|vm_compute in E; discriminate..].
    exists m, types. split; [reflexivity|]. vm_compute in E. injection E as <- <-. vm_compute. reflexivity.
Qed.

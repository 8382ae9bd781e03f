(** Proofs about the VTK readers. *)
From Coq Require Import String Permutation.
From Verif Require Import P_Base M_Conn S_Conn P_Conn M_Mesh S_Mesh M_Text P_Text M_FPMA S_FPMA P_Poly P_FPMA P_FPMAWrite
  M_VTK S_VTK P_Bnd.
Local Open Scope N_scope.
Local Open Scope list_scope.

Section Stream.
Context {C : Type}.
Implicit Type ts rest : list (vtok C).

Lemma ignore_one_line l rest : one_line l -> ignore_line (l ++ Vnl :: rest) = rest.
Proof.
  unfold one_line. induction l as [|t l IH]; intros H; cbn [app ignore_line]; [reflexivity|].
  destruct t; try (apply IH; intros K; apply H; right; assumption).
  exfalso. apply H. left. reflexivity.
Qed.

Lemma vreadMany_nums l : forall rest,
  vreadMany vreadN (List.length l) (map (fun x => @Vn C x) l ++ rest) = Ok (l, rest).
Proof.
  induction l as [|x l IH]; intros rest; [reflexivity|].
  cbn [List.length vreadMany map app]. unfold vreadN at 1. cbn [skip_nl bind fst snd].
  rewrite IH. reflexivity.
Qed.

Definition nls (k : nat) : list (vtok C) := repeat Vnl k.

Lemma skip_nls k rest : skip_nl (nls k ++ rest) = skip_nl rest.
Proof. induction k; [reflexivity|assumption]. Qed.

Lemma vreadRow_row vs k rest : vreadRow (nls k ++ row vs ++ rest) = Ok (vs, Vnl :: rest).
Proof.
  unfold vreadRow, row. unfold vreadN at 1. rewrite skip_nls. unfold vnum.
  cbn [app skip_nl bind fst snd]. rewrite Nat2N.id, <- app_assoc, vreadMany_nums. reflexivity.
Qed.

Lemma vreadW_word k s rest : vreadW (nls k ++ Vw s :: rest) = (Some s, rest).
Proof. unfold vreadW. rewrite skip_nls. reflexivity. Qed.

Lemma vreadMany_points2 (pts : list (C * C * C)) : forall k rest,
  exists k', vreadMany vreadPoint2 (List.length pts)
    (nls k ++ flat_map (fun p => [Vc (fst (fst p)); Vc (snd (fst p)); Vc (snd p); Vnl]) pts ++ rest)
    = Ok (map fst pts, nls k' ++ rest).
Proof.
  induction pts as [|[[x y] z] pts IH]; intros k rest; [exists k; reflexivity|].
  cbn [List.length vreadMany flat_map app fst snd].
  unfold vreadPoint2, vreadC. rewrite skip_nls. cbn [skip_nl bind fst snd].
  destruct (IH 1%nat rest) as [k' H]. unfold nls at 1 in H. cbn [repeat app] in H.
  change (vreadMany _ (List.length pts) _) with
    (vreadMany vreadPoint2 (List.length pts)
      (Vnl :: flat_map (fun p => [Vc (fst (fst p)); Vc (snd (fst p)); Vc (snd p); Vnl]) pts ++ rest)).
  exists k'. rewrite H. reflexivity.
Qed.

Lemma vreadMany_points3 (pts : list (C * C * C)) : forall k rest,
  exists k', vreadMany vreadPoint3 (List.length pts)
    (nls k ++ flat_map (fun p => [Vc (fst (fst p)); Vc (snd (fst p)); Vc (snd p); Vnl]) pts ++ rest)
    = Ok (pts, nls k' ++ rest).
Proof.
  induction pts as [|[[x y] z] pts IH]; intros k rest; [exists k; reflexivity|].
  cbn [List.length vreadMany flat_map app fst snd].
  unfold vreadPoint3, vreadC. rewrite skip_nls. cbn [skip_nl bind fst snd].
  destruct (IH 1%nat rest) as [k' H]. unfold nls at 1 in H. cbn [repeat app] in H.
  change (vreadMany _ (List.length pts) _) with
    (vreadMany vreadPoint3 (List.length pts)
      (Vnl :: flat_map (fun p => [Vc (fst (fst p)); Vc (snd (fst p)); Vc (snd p); Vnl]) pts ++ rest)).
  exists k'. rewrite H. reflexivity.
Qed.

(** * Types *)
Lemma types_loop_spec conv codes : forall k n types rest,
  (n + List.length codes <= List.length types)%nat ->
  exists types', types_loop conv (List.length codes) (N.of_nat n) types
      (nls k ++ flat_map (fun t => [Vn t; @Vnl C]) codes ++ rest) =
      Ok (types', nls (match codes with [] => k | _ => 1%nat end) ++ rest) /\
    List.length types' = List.length types /\
    forall i, nth_error types' i =
      match (if n <=? i then nth_error codes (i - n) else None)%nat with
      | Some code => match conv code with Some e => Some e | None => nth_error types i end
      | None => nth_error types i
      end.
Proof.
  induction codes as [|code codes IH]; intros k n types rest HL.
  - exists types. splits; try reflexivity. intros i. destruct (n <=? i)%nat; [|reflexivity].
    destruct (i - n)%nat; reflexivity.
  - cbn [List.length types_loop flat_map app]. unfold vreadN at 1. rewrite skip_nls. cbn [skip_nl bind fst snd].
    cbn [List.length] in HL.
    set (types1 := match conv code with Some e => upd types n e | None => types end).
    assert (E : match conv code with Some e => vset types (N.of_nat n) e | None => Ok types end = Ok types1).
    { unfold types1. destruct (conv code); [|reflexivity]. apply vset_ok. split; [lia|]. rewrite Nat2N.id. reflexivity. }
    rewrite E. cbn [bind].
    assert (L1 : List.length types1 = List.length types) by (unfold types1; destruct (conv code); [apply upd_length|reflexivity]).
    replace (N.of_nat n + 1) with (N.of_nat (S n)) by lia.
    destruct (IH 1%nat (S n) types1 rest) as (types' & H & L & Sp); [lia|].
    unfold nls at 1 in H. cbn [repeat app] in H. exists types'. rewrite H.
    split; [destruct codes; reflexivity|]. split; [lia|].
    intros i. rewrite Sp. destruct (Nat.leb_spec (S n) i), (Nat.leb_spec n i); try lia.
    + replace (i - n)%nat with (S (i - S n)) by lia. cbn [nth_error].
      assert (E1 : nth_error types1 i = nth_error types i).
      { unfold types1. destruct (conv code); [|reflexivity]. apply nth_error_upd_neq. lia. }
      rewrite E1. reflexivity.
    + assert (i = n) by lia. subst i. rewrite Nat.sub_diag. cbn [nth_error].
      unfold types1. destruct (conv code); [|reflexivity]. rewrite nth_error_upd_eq by lia. reflexivity.
    + unfold types1. destruct (conv code); [|reflexivity]. rewrite nth_error_upd_neq by lia. reflexivity.
Qed.
End Stream.

(** * The planar cells loop *)
Definition pairs_items (vs : list N) : list (list N) := map (fun p => [fst p; snd p]) (cyc_pairs vs).

Lemma key2_iff a b c d : key2 [a; b] = key2 [c; d] <-> (a = c /\ b = d) \/ (a = d /\ b = c).
Proof. unfold key2. cbn [nth]. apply edge_key_iff. Qed.

Lemma pairs_items_NoDup vs : polygon vs -> NoDup (map key2 (pairs_items vs)).
Proof.
  intros HP. unfold pairs_items. rewrite map_map. apply NoDup_nth_error. intros i j Hi E.
  rewrite map_length, cyc_pairs_length in Hi. rewrite !nth_error_map in E.
  destruct (nth_error (cyc_pairs vs) i) as [[a b]|] eqn:Ei.
  2:{ apply nth_error_None in Ei. rewrite cyc_pairs_length in Ei. lia. }
  destruct (nth_error (cyc_pairs vs) j) as [[c d]|] eqn:Ej; [|discriminate].
  cbn [option_map] in E. injection E as E. cbn [fst snd] in E. apply key2_iff in E.
  apply cyc_pairs_nth in Ei, Ej. eapply side_inj; eauto.
Qed.

Lemma in_pairs_items vs it : In it (pairs_items vs) <-> exists i a b, it = [a; b] /\ side vs i a b.
Proof.
  unfold pairs_items. rewrite in_map_iff. split.
  - intros ([a b] & <- & H). apply In_nth_error in H as [i Hi]. apply cyc_pairs_nth in Hi. cbn [fst snd]. eauto.
  - intros (i & a & b & -> & H). exists (a, b). split; [reflexivity|]. apply cyc_pairs_nth in H.
    eapply nth_error_In; eassumption.
Qed.

Lemma pairs_two {C} (F : vtk_file C) : grid2_ok F -> two key2 (map pairs_items (vf_cells F)).
Proof.
  intros G k l ND H. destruct l as [|c0 l0] eqn:El; [simpl; lia|]. rewrite <- El in *.
  assert (H0 : In c0 l) by (rewrite El; left; reflexivity).
  destruct (H c0 H0) as (items & E & K). rewrite nth_error_map in E.
  destruct (nth_error (vf_cells F) (N.to_nat c0)) as [vs0|] eqn:E0; [|discriminate]. injection E as <-.
  apply in_map_iff in K as (it & Ek & Hit). apply in_pairs_items in Hit as (i & a & b & -> & _).
  apply (g2_two _ G a b l ND). intros c Hc. destruct (H c Hc) as (items & E & K). rewrite nth_error_map in E.
  destruct (nth_error (vf_cells F) (N.to_nat c)) as [vs|] eqn:Ec; [|discriminate]. injection E as <-.
  exists vs. split; [reflexivity|].
  apply in_map_iff in K as (it' & Ek' & Hit'). apply in_pairs_items in Hit' as (j & x & y & -> & Hs).
  rewrite <- Ek in Ek'. apply key2_iff in Ek' as [[-> ->]|[-> ->]]; exists j; auto.
Qed.

Lemma concat_pairs_length l : List.length (List.concat (map pairs_items l)) = List.length (List.concat l).
Proof.
  induction l as [|vs l IH]; [reflexivity|]. cbn [map List.concat]. rewrite !app_length, IH. f_equal.
  unfold pairs_items. rewrite map_length. apply cyc_pairs_length.
Qed.

Lemma cells2_spec {C} (FF : vtk_file C) (G : grid2_ok FF) todo : forall done ess F em k rest,
  vf_cells FF = done ++ todo -> BInv key2 (map pairs_items done) ess F em ->
  exists ess' F' em' k',
    cells2_loop (C := C) (repeat INVALID (List.length todo)) (N.of_nat (List.length done)) F em
      (nls k ++ flat_map row todo ++ rest) = Ok (map (fun es => hd INVALID es) ess', F', nls k' ++ rest) /\
    BInv key2 (map pairs_items (done ++ todo)) (ess ++ ess') F' em'.
Proof.
  induction todo as [|vs todo IH]; intros done ess F em k rest HF I.
  - exists [], F, em, k. rewrite !app_nil_r. split; [reflexivity|assumption].
  - cbn [List.length repeat cells2_loop flat_map].
    rewrite <- app_assoc, vreadRow_row. cbn [bind fst snd].
    assert (Hp : polygon vs) by (apply (g2_poly _ G); rewrite HF; apply in_or_app; right; left; reflexivity).
    assert (HF' : vf_cells FF = (done ++ [vs]) ++ todo) by (rewrite <- app_assoc; assumption).
    destruct (bnd_step key2 0 (map pairs_items done) ess F em (pairs_items vs) INVALID I)
      as (es & F1 & em1 & H1 & I1).
    + apply two_app with (its' := map pairs_items todo). 
      change [pairs_items vs] with (map pairs_items [vs]).
      rewrite <- !map_app, <- HF'. apply pairs_two. assumption.
    + intros K. apply (f_equal (@List.length _)) in K. unfold pairs_items in K.
      rewrite map_length, cyc_pairs_length in K. destruct Hp. simpl in K. lia.
    + apply pairs_items_NoDup. assumption.
    + auto.
    + rewrite map_length. pose proof (g2_cells _ G) as B. rewrite HF, app_length in B. cbn [List.length] in B. lia.
    + change [pairs_items vs] with (map pairs_items [vs]). rewrite <- map_app, concat_pairs_length.
      pose proof (g2_size _ G) as B. rewrite HF', concat_app, app_length in B. lia.
    + rewrite map_length in H1. fold (pairs_items vs). rewrite H1. cbn [bind].
      change [pairs_items vs] with (map pairs_items [vs]) in I1. rewrite <- map_app in I1.
      destruct (IH (done ++ [vs]) (ess ++ [es]) F1 em1 1%nat rest HF' I1) as (ess' & F' & em' & k' & H' & I').
      rewrite app_length, Nat2N.inj_add in H'. cbn [List.length] in H'.
      change (N.of_nat 1) with 1 in H'. change (nls 1 ++ flat_map row todo ++ rest) with (@Vnl C :: flat_map row todo ++ rest) in H'.
      rewrite H'. cbn [bind]. exists (es :: ess'), F', em', k'. split; [reflexivity|].
      rewrite <- !app_assoc in I'. assumption.
Qed.

(** * The whole planar file *)
Lemma is_word_refl s : is_word (Some s) s = true.
Proof. simpl. apply String.eqb_refl. Qed.

Lemma load2_spec {C} (F : vtk_file C) l1 l2 rest (m0 : Mesh (C * C)) old :
  grid2_ok F -> one_line l1 -> one_line l2 -> m_dim m0 = 2%nat -> m_mid m0 = [] ->
  exists m types ess,
    loadVTK2 (vtk_header l1 l2 ++ vtk_body F ++ rest) m0 old = Ok (m, types) /\
    m_dim m = 2%nat /\ m_mid m = [] /\ m_bcells m = m_bcells m0 /\ m_verts m = map fst (vf_pts F) /\
    m_cells m = map (fun es => hd INVALID es) ess /\
    (exists em, BInv key2 (map pairs_items (vf_cells F)) ess (m_faces m) em) /\
    List.length types = List.length (vf_cells F) /\
    (forall i, nth_error types i =
      match nth_error (vf_types F) i with
      | Some code => match vtkType2 code with
                     | Some e => Some e
                     | None => nth_error (vresize (List.length (vf_cells F)) Tdefault old) i end
      | None => nth_error (vresize (List.length (vf_cells F)) Tdefault old) i
      end).
Proof.
  intros G H1 H2 HD HM. unfold loadVTK2, loadVTK, vtk_header. rewrite <- !app_assoc. cbn [app].
  rewrite ignore_one_line by assumption. rewrite ignore_one_line by assumption.
  unfold vreadW at 1. cbn [skip_nl]. rewrite is_word_refl. cbn [negb].
  unfold vreadW at 1. cbn [skip_nl]. rewrite is_word_refl. cbn [negb].
  unfold vreadW at 1. cbn [skip_nl]. rewrite is_word_refl. cbn [negb].
  unfold vtk_body, points_section. rewrite <- !app_assoc. cbn [app].
  unfold vreadW at 1. cbn [skip_nl]. rewrite is_word_refl.
  unfold loadPoints. unfold vreadN at 1. unfold vnum at 1. cbn [skip_nl bind fst snd ignore_line].
  rewrite Nat2N.id.
  destruct (vreadMany_points2 (vf_pts F) 0 (Vnl :: cells_section (vf_cells F) ++ types_section (vf_types F) ++ rest))
    as [k1 E1].
  cbn [nls repeat app] in E1. rewrite E1. cbn [bind fst snd].
  change (Vnl :: cells_section (vf_cells F) ++ types_section (vf_types F) ++ rest)
    with (nls 1 ++ cells_section (vf_cells F) ++ types_section (vf_types F) ++ rest).
  rewrite app_assoc. replace (nls k1 ++ nls 1) with (@nls C (k1 + 1)) by (unfold nls; rewrite repeat_app; reflexivity).
  unfold cells_section. rewrite <- !app_assoc. cbn [app]. rewrite vreadW_word, is_word_refl.
  unfold loadCells2. unfold vreadN at 1. unfold vnum at 1. cbn [skip_nl bind fst snd ignore_line].
  cbn [clear m_cells m_faces m_dim m_mid m_verts m_bcells]. rewrite Nat2N.id.
  unfold vresize at 1. rewrite firstn_nil. cbn [List.length app]. rewrite Nat.sub_0_r.
  destruct (cells2_spec F G (vf_cells F) [] [] [] [] 0 (Vnl :: types_section (vf_types F) ++ rest) eq_refl)
    as (ess & FF & em & k2 & E2 & I2); [apply BInv_nil|].
  cbn [nls repeat app List.length N.of_nat] in E2. rewrite E2. cbn [bind fst snd].
  change (Vnl :: types_section (vf_types F) ++ rest) with (nls 1 ++ types_section (vf_types F) ++ rest).
  rewrite app_assoc. replace (nls k2 ++ nls 1) with (@nls C (k2 + 1)) by (unfold nls; rewrite repeat_app; reflexivity).
  unfold types_section. rewrite <- !app_assoc. cbn [app]. rewrite vreadW_word, is_word_refl.
  cbn [m_cells]. unfold loadCellTypes. unfold vreadN at 1. unfold vnum at 1. cbn [skip_nl bind fst snd].
  rewrite Nat2N.id.
  cbn [app] in I2. pose proof (Forall2_length' _ _ _ (bi_keyed _ _ _ _ _ I2)) as LE. rewrite map_length in LE.
  rewrite map_length, LE.
  assert (LR : forall n, List.length (vresize n Tdefault old) = n).
  { intros n. unfold vresize. rewrite app_length, firstn_length, repeat_length. lia. }
  destruct (types_loop_spec vtkType2 (vf_types F) 1 0 (vresize (List.length (vf_cells F)) Tdefault old)
              (Vnl :: rest)) as (types & E3 & L3 & S3).
  { rewrite LR. cbn [Nat.add]. apply (g2_types _ G). }
  cbn [nls repeat app N.of_nat] in E3. rewrite E3. cbn [bind fst snd].
  eexists _, types, ess. split; [reflexivity|]. cbn [m_dim m_mid m_bcells m_verts m_cells m_faces].
  splits; auto.
  - rewrite HM. reflexivity.
  - exists em. exact I2.
  - rewrite L3. apply LR.
  - intros i. rewrite S3. cbn [Nat.leb]. rewrite Nat.sub_0_r. reflexivity.
Qed.

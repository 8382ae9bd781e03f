(** C111: a planar VTK file of polygons that are oriented alike, read and written again, is the same file. *)
From Coq Require Import String Ascii QArith.
From Verif Require Import P_Base M_Conn S_Conn P_Conn M_Mesh S_Mesh M_Text M_Apply P_Apply M_FPMA S_FPMA P_Poly P_FPMA P_FPMAWrite T_FPMA
  M_VTK S_VTK P_Bnd P_VTK T_VTK M_VTKWrite P_VTKWrite T_VTKWrite M_Chars M_Stream S_Stream P_Stream P_Stream2 P_JNum M_FileText S_FileText P_FileText P_FPMAText P_VTKText T_FileText T_VTKText S_Rewrite Ex_Mesh Ex_VTK.
Local Open Scope nat_scope.
Local Open Scope list_scope.

Lemma same_head v0 v1 r r' : polygon (v0 :: v1 :: r) -> same_polygon (v0 :: v1 :: r) (v0 :: v1 :: r') -> r' = r.
Proof.
  intros [ND L] SP. assert (LE : length r' = length r) by (apply same_polygon_perm, Permutation_length in SP; simpl in SP; lia).
  simpl in L. destruct SP as (l1 & l2 & E & [H|H]).
  - destruct l1 as [|x l1]; [rewrite app_nil_r in H; simpl in E; congruence|]. injection E as <- E.
    destruct l2 as [|y l2]; [rewrite app_nil_r in *; simpl in H; congruence|]. injection H as <- _. exfalso.
    inversion ND as [|? ? N _]; subst. apply N. rewrite E. apply in_or_app. right. left. reflexivity.
  - exfalso. rewrite rev_app_distr in H. inversion ND as [|? ? N0 ND']; subst. inversion ND' as [|? ? N1 _]; subst.
    destruct l1 as [|x l1].
    + simpl in E, H. subst l2. simpl in H. destruct (rev r) as [|y t] eqn:Er.
      * apply (f_equal (@length N)) in Er. rewrite rev_length in Er. simpl in Er. lia.
      * simpl in H. injection H as H _. subst y. apply N0. right. apply in_rev. rewrite Er. left. reflexivity.
    + injection E as <- E. destruct l1 as [|y l1].
      * simpl in E, H. subst l2. injection H as H. simpl in H. destruct (rev r) as [|y t] eqn:Er.
        -- apply (f_equal (@length N)) in Er. rewrite rev_length in Er. simpl in Er. lia.
        -- simpl in H. injection H as H _. subst y. apply N1. apply in_rev. rewrite Er. left. reflexivity.
      * injection E as <- E. simpl in H. destruct (rev l1) as [|z t] eqn:El.
        -- simpl in H. injection H as H _. apply N0. left. symmetry. exact H.
        -- simpl in H. injection H as H _. subst z. apply N0. right. rewrite E. apply in_or_app. left. apply in_rev. rewrite El. left. reflexivity.
Qed.

(** The rows the writer makes of the loaded mesh are the rows of the file. *)
Lemma rewrite_rows {C} (F : vtk_file C) l1 l2 rest (m0 : Mesh (C * C)) old :
  grid2_ok F -> oriented (vf_cells F) -> one_line l1 -> one_line l2 -> m_dim m0 = 2 -> m_mid m0 = [] ->
  exists m types, loadVTK2 (vtk_header l1 l2 ++ vtk_body F ++ rest) m0 old = Ok (m, types) /\
    m_verts m = map fst (vf_pts F) /\ length (m_cells m) = length (vf_cells F) /\
    indexMesh2 m = Ok (vf_cells F, countWritten (vf_cells F)).
Proof.
  intros G O H1 H2 HD HM.
  destruct (C24_vtk2_read F l1 l2 rest m0 old G H1 H2 HD HM) as (m & types & ess & E & _ & _ & V & LC & S & R & Un & _ & _ & Dir).
  exists m, types. do 3 (split; [assumption|]).
  assert (Row : forall c vs, nth_error (vf_cells F) (N.to_nat c) = Some vs -> indexCell m c = Ok vs).
  { intros c vs Hc. apply Forall2_nth in S as [LS S]. assert (Hl : N.to_nat c < length ess) by (rewrite LS; apply nth_error_Some; congruence).
    destruct (nth_error ess (N.to_nat c)) as [es|] eqn:Es; [|apply nth_error_None in Es; lia].
    pose proof (S _ _ _ Es Hc) as Sd. pose proof (R c es Es) as Rg. pose proof (g2_poly _ G vs (nth_error_In _ _ Hc)) as P.
    assert (B : bounds (edges2 m) es vs).
    { split; [exact P|]. exists es. split; [apply Permutation_refl|]. split; [|exact Sd]. destruct Rg as (? & ? & _ & _ & _ & ND). exact ND. }
    destruct (indexCell_spec m c es vs Rg B) as (vs' & e0 & f & a & b & Ei & SP & He0 & Hf & Hs & Hd). rewrite Ei. f_equal.
    destruct vs as [|v0 [|v1 r]]; [destruct P; simpl in *; lia|destruct P; simpl in *; lia|].
    assert (S0 : side (v0 :: v1 :: r) 0 v0 v1) by (split; [reflexivity|]; cbn [length]; rewrite Nat.mod_small by lia; reflexivity).
    assert (J : [a; b] = [v0; v1] \/ [a; b] = [v1; v0]).
    { destruct Sd as [_ Sd]. specialize (Sd 0 e0 v0 v1 He0 S0). unfold joins, edges2 in Sd. rewrite nth_error_map, Hf in Sd. cbn [option_map] in Sd. rewrite Hs in Sd.
      destruct Sd as [Q|Q]; injection Q as -> ->; auto. }
    destruct (Dir _ _ Hf) as (u & j & a' & b' & Hu & Su & Hs'). rewrite Hs in Hs'. injection Hs' as <- <-.
    assert (FN : firstn 2 vs' = [v0; v1]).
    { rewrite Hd. destruct (N.eqb_spec (cellLeft (bc (f_conn f))) c) as [Q|Q].
      - rewrite Q in Hu. assert (u = v0 :: v1 :: r) by congruence. subst u. destruct J as [J|J]; [exact J|exfalso]. injection J as -> ->.
        destruct Su as [Sa Sb]. destruct P as [ND L].
        assert (j = 1) by (apply (proj1 (NoDup_nth_error _) ND); [apply nth_error_Some; congruence|rewrite Sa; reflexivity]). subst j.
        assert (Hm : 2 mod length (v0 :: v1 :: r) = 0).
        { apply (proj1 (NoDup_nth_error _) ND); [apply Nat.mod_upper_bound; simpl; lia|rewrite Sb; reflexivity]. }
        destruct r as [|w r]; [simpl in L; lia|]. rewrite Nat.mod_small in Hm by (simpl; lia). lia.
      - destruct J as [J|J]; injection J as -> ->; [exfalso|reflexivity]. apply Q. apply N2Nat.inj. exact (O _ _ _ _ _ _ _ _ Hu Hc Su S0). }
    destruct vs' as [|x [|y r']]; [discriminate FN|discriminate FN|]. injection FN as -> ->.
    rewrite (same_head v0 v1 r r' P SP). reflexivity. }
  unfold indexMesh2. assert (EM : mapM (indexCell m) (seqN (length (m_cells m))) = Ok (vf_cells F)).
  { apply mapM_ok. apply Forall2_nth. rewrite seqN_length. split; [exact LC|]. intros i c vs Hc Hvs.
    assert (i < length (m_cells m)) by (rewrite LC; apply nth_error_Some; congruence).
    rewrite nth_error_seqN in Hc by assumption. injection Hc as <-. apply Row. rewrite Nat2N.id. exact Hvs. }
  rewrite EM. reflexivity.
Qed.

(** C111, tokens. With any types of planar cells; with the types of the file (codes 3, 5, 7 and 9) and third coordinates [zero] the file itself. *)
Theorem C111_vtk2 : forall C (F : vtk_file C) l1 l2 rest (m0 : Mesh (C * C)) old zero,
  grid2_ok F -> oriented (vf_cells F) -> one_line l1 -> one_line l2 -> m_dim m0 = 2 -> m_mid m0 = [] ->
  exists m types, loadVTK2 (vtk_header l1 l2 ++ vtk_body F ++ rest) m0 old = Ok (m, types) /\
    (forall types' codes', Forall2 (fun t n => vtkCode2 t = Some n) types' codes' -> length types' = length (vf_cells F) ->
       writeVTK2 zero m types' = Ok (vtk_body (mkVtk (map (fun p => (fst p, zero)) (vf_pts F)) (vf_cells F) codes'))) /\
    ((forall p, In p (vf_pts F) -> snd p = zero) -> (forall n, In n (vf_types F) -> In n [3; 5; 7; 9]%N) -> length (vf_types F) = length (vf_cells F) ->
       writeVTK2 zero m types = Ok (vtk_body F)).
Proof.
  intros C F l1 l2 rest m0 old zero G O H1 H2 HD HM.
  destruct (rewrite_rows F l1 l2 rest m0 old G O H1 H2 HD HM) as (m & types & E & V & LC & EI).
  exists m, types. split; [exact E|].
  assert (W : forall types' codes', Forall2 (fun t n => vtkCode2 t = Some n) types' codes' -> length types' = length (vf_cells F) ->
       writeVTK2 zero m types' = Ok (vtk_body (mkVtk (map (fun p => (fst p, zero)) (vf_pts F)) (vf_cells F) codes'))).
  { intros types' codes' HT HL. unfold writeVTK2. rewrite EI. cbn [bind].
    rewrite (emit2_spec m zero types' codes' HT (eq_trans HL (eq_sym LC)) (vf_cells F) (eq_sym LC)).
    unfold written2. rewrite V, map_map. do 3 f_equal. apply map_ext. intros [[x y] z]. reflexivity. }
  split; [exact W|]. intros Hz Hc HL.
  destruct (load2_spec F l1 l2 rest m0 old G H1 H2 HD HM) as (m2 & types2 & ess & E2 & _ & _ & _ & _ & _ & _ & L & T).
  assert (types2 = types) by congruence. subst types2.
  rewrite (W types (vf_types F)); [|apply Forall2_nth; split; [congruence|]|congruence].
  - destruct F as [pts cells codes]. cbn [vf_pts vf_cells vf_types] in *. do 3 f_equal. rewrite <- (map_id pts) at 2. apply map_ext_in.
    intros p Hp. rewrite <- (Hz p Hp). destruct p; reflexivity.
  - intros i t n Ht Hn. rewrite T, Hn in Ht. destruct (Hc n (nth_error_In _ _ Hn)) as [<-|[<-|[<-|[<-|[]]]]]; cbn in Ht; injection Ht as <-; reflexivity.
Qed.
Print Assumptions C111_vtk2.

(** * Characters *)
Lemma rot_pairs (l1 l2 : list N) : Permutation (cyc_pairs (l1 ++ l2)) (cyc_pairs (l2 ++ l1)).
Proof.
  revert l2. induction l1 as [|v l1 IH]; intros l2; [rewrite app_nil_r; apply Permutation_refl|].
  transitivity (cyc_pairs (l1 ++ (l2 ++ [v]))).
  - rewrite app_assoc. cbn [app]. generalize (l1 ++ l2) as r. intros r. change (r ++ [v]) with (rot1 (v :: r)).
    rewrite (cyc_pairs_rot1 (rot1 (v :: r))), combine_rot1 by (rewrite rot1_length; reflexivity). rewrite <- cyc_pairs_rot1.
    destruct (cyc_pairs (v :: r)) as [|h t]; [apply Permutation_refl|apply Permutation_cons_append].
  - rewrite IH. rewrite <- app_assoc. apply Permutation_refl.
Qed.
Lemma rot_side l1 l2 i x y : side (l1 ++ l2) i x y -> exists j, side (l2 ++ l1) j x y.
Proof.
  intros H. apply cyc_pairs_nth, nth_error_In in H. apply (Permutation_in _ (rot_pairs l1 l2)) in H. apply In_nth_error in H as [j H].
  exists j. apply cyc_pairs_nth. exact H.
Qed.
Lemma rot_same l1 l2 vs' : same_polygon (l1 ++ l2) vs' -> same_polygon (l2 ++ l1) vs'.
Proof.
  intros (k1 & k2 & E & H). assert (G : exists p q, l2 ++ l1 = p ++ q /\ q ++ p = k2 ++ k1).
  { apply app_eq_app' in E as (l & [[-> ->]|[-> ->]]).
    - exists (l2 ++ k1), l. rewrite <- !app_assoc. auto.
    - exists l, (k2 ++ l1). rewrite <- !app_assoc. auto. }
  destruct G as (p & q & E1 & E2). exists p, q. rewrite E2. auto.
Qed.
(** A row that starts with a side of the polygon is the polygon read from there. *)
Lemma starts_side vs i a b vs' : polygon vs -> side vs i a b -> same_polygon vs vs' -> firstn 2 vs' = [a; b] ->
  forall j x y, side vs' j x y -> exists k, side vs k x y.
Proof.
  intros P [Sa Sb] SP F j x y H.
  apply nth_error_split in Sa as (l1 & r & E & L). subst vs.
  assert (R : exists r2, (a :: r) ++ l1 = a :: b :: r2).
  { destruct r as [|w r].
    - rewrite app_length in Sb. simpl in Sb. replace (S i) with (length l1 + 1) in Sb by lia. rewrite Nat.mod_same in Sb by lia.
      destruct l1 as [|u l1]; [destruct P as [_ Q]; simpl in Q; lia|]. injection Sb as ->. exists l1. reflexivity.
    - rewrite app_length in Sb. simpl in Sb. rewrite Nat.mod_small in Sb by lia. rewrite nth_error_app2 in Sb by lia.
      replace (S i - length l1) with 1 in Sb by lia. injection Sb as ->. exists (r ++ l1). reflexivity. }
  destruct R as (r2 & R). apply rot_same in SP. pose proof SP as SP'. rewrite R in SP.
  destruct vs' as [|a' [|b' r']]; [discriminate F|discriminate F|]. injection F as -> ->.
  assert (P' : polygon (a :: b :: r2)).
  { rewrite <- R. apply (polygon_perm _ _ (Permutation_app_comm l1 (a :: r))). exact P. }
  rewrite (same_head a b r2 r' P' SP) in H. rewrite <- R in H. apply rot_side in H as (k & H). exists k. exact H.
Qed.
Lemma one_direction vs i j a b x y : polygon vs -> side vs i a b -> side vs j x y -> (a = x /\ b = y) \/ (a = y /\ b = x) -> a = x /\ b = y.
Proof.
  intros P H H' E. assert (i = j) by (eapply side_inj; eauto). subst j. exact (side_det _ _ _ _ _ _ H H').
Qed.

(** The rows of a mesh whose cells have their edges on their left are oriented alike. *)
Lemma rows_oriented {C} (m : Mesh (C * C)) polys :
  left_on_left m -> (forall e e' a b, joins (edges2 m) e a b -> joins (edges2 m) e' a b -> e = e') ->
  (forall c vs', nth_error polys (N.to_nat c) = Some vs' -> exists es, ring m c es /\ indexCell m c = Ok vs') ->
  oriented polys.
Proof.
  intros LL Un HP.
  assert (Key : forall c vs j x y, nth_error polys (N.to_nat c) = Some vs -> side vs j x y ->
    exists e f es, nth_error (m_faces m) (N.to_nat e) = Some f /\ joins (edges2 m) e x y /\ ring m c es /\ In e es /\
      (c = cellLeft (bc (f_conn f)) \/ c = cellRight (bc (f_conn f))) /\
      ((exists c' es', c' <> c /\ ring m c' es' /\ In e es') -> f_subs f = if (cellLeft (bc (f_conn f)) =? c)%N then [x; y] else [y; x])).
  { intros c vs j x y Hc Hs. destruct (HP c vs Hc) as (es & R & EI). destruct (LL c es R) as (ws & B & Turn).
    destruct (indexCell_spec m c es ws R B) as (vs2 & e0 & f0 & a0 & b0 & EI2 & SP & He0 & Hf0 & Hs0 & Hd0).
    assert (vs2 = vs) by congruence. subst vs2. pose proof B as (P & es' & Pm & _ & Sd).
    assert (W : exists k, side ws k x y).
    { destruct (Turn e0 f0 a0 b0 (nth_error_In _ _ He0) (or_introl He0) Hf0 Hs0) as (i & Hi). destruct (cellLeft (bc (f_conn f0)) =? c)%N; eapply starts_side; eassumption. }
    destruct W as (k & W). assert (Hk : k < length es') by (destruct Sd as [-> _]; apply nth_error_Some; destruct W; congruence).
    destruct (nth_error es' k) as [e|] eqn:Ee; [|apply nth_error_None in Ee; lia].
    assert (Hin : In e es) by (apply (Permutation_in _ (Permutation_sym Pm)); eapply nth_error_In; exact Ee).
    pose proof (proj2 Sd _ _ _ _ Ee W) as J. destruct (ring_succ _ _ _ _ R Hin) as (g & SF). destruct (succ_side _ _ _ _ SF) as (f & Hf & Side).
    exists e, f, es. do 5 (split; [assumption|]). intros Sh.
    assert (JJ : f_subs f = [x; y] \/ f_subs f = [y; x]).
    { unfold joins, edges2 in J. rewrite nth_error_map, Hf in J. cbn [option_map] in J. destruct J as [J|J]; injection J as ->; auto. }
    destruct JJ as [JJ|JJ]; rewrite JJ; destruct (Turn e f _ _ Hin (or_intror Sh) Hf JJ) as (i & Hi); destruct (cellLeft (bc (f_conn f)) =? c)%N; try reflexivity;
      destruct (one_direction _ _ _ _ _ _ _ P Hi W) as [Q1 Q2]; auto; subst; exfalso; exact (side_ne _ _ _ _ P W eq_refl). }
  intros c c' vs vs' i j a b Hc Hc' Hs Hs'. destruct (Nat.eq_dec c c') as [Ec|Nc]; [exact Ec|]. rewrite <- (Nat2N.id c) in Hc. rewrite <- (Nat2N.id c') in Hc'.
  assert (Ne : N.of_nat c <> N.of_nat c') by (intros Q; apply Nc, Nat2N.inj, Q).
  destruct (Key _ _ _ _ _ Hc Hs) as (e & f & es & Hf & J & Rg & Hin & Sd & T). destruct (Key _ _ _ _ _ Hc' Hs') as (e' & f' & es' & Hf' & J' & Rg' & Hin' & Sd' & T').
  assert (e' = e) by (eapply Un; eassumption). subst e'. assert (f' = f) by congruence. subst f'.
  specialize (T (ex_intro _ _ (ex_intro _ _ (conj (not_eq_sym Ne) (conj Rg' Hin'))))). specialize (T' (ex_intro _ _ (ex_intro _ _ (conj Ne (conj Rg Hin))))).
  assert (NE : a <> b).
  { destruct (HP _ _ Hc) as (es1 & R & EI). destruct (LL _ es1 R) as (ws & B & _).
    destruct (indexCell_spec m _ es1 ws R B) as (vs2 & _ & _ & _ & _ & EI2 & SP & _). assert (vs2 = vs) by congruence. subst vs2.
    apply (side_ne vs i); [|exact Hs]. apply (polygon_perm ws); [apply same_polygon_perm; exact SP|apply B]. }
  apply Nat2N.inj. rewrite T in T'.
  destruct (N.eqb_spec (cellLeft (bc (f_conn f))) (N.of_nat c)) as [Q|Q]; destruct (N.eqb_spec (cellLeft (bc (f_conn f))) (N.of_nat c')) as [Q'|Q'].
  - congruence.
  - injection T' as T1 T2. congruence.
  - injection T' as T1 T2. congruence.
  - destruct Sd as [Sd|Sd]; [congruence|]. destruct Sd' as [Sd'|Sd']; congruence.
Qed.

(** C111, characters: written, read and written again, the text is the same. [precise]: at least as precise as a 32-bit float. *)
Theorem C111_vtk2_text : forall C (K : fp C) (m : Mesh (C * C)) types codes name,
  precise K -> left_on_left m ->
  (val K (near K 0) == 0)%Q ->
  (forall c, (c < N.of_nat (length (m_cells m)))%N -> exists es vs, ring m c es /\ bounds (edges2 m) es vs) ->
  (forall e e' a b, joins (edges2 m) e a b -> joins (edges2 m) e' a b -> e = e') ->
  (forall f v, In f (m_faces m) -> In v (f_subs f) -> (v < N.of_nat (length (m_verts m)))%N) ->
  (N.of_nat (length (m_verts m)) <= INVALID)%N -> (N.of_nat (length (m_cells m)) <= INVALID)%N -> (N.of_nat (2 * length (m_faces m)) <= INVALID)%N ->
  Forall2 (fun t n => vtkCode2 t = Some n) types codes -> length types = length (m_cells m) -> m_dim m = 2 ->
  ~ In nl name -> length name < 1024 ->
  exists s m', writeVTK2text K m types = Ok s /\ (forall after, readVTK2 K (headerText name ++ s ++ after) (emptyMesh 2) [] = Ok (m', types)) /\
    writeVTK2text K m' types = Ok s.
Proof.
  intros C K m types codes name PK LL Z Cells Uniq HV SV SC SF Types LT D N1 N2.
  destruct (index2_spec m Cells) as (polys & E & L & HP).
  pose proof (written2_ok m (near K 0) Cells Uniq SC SF types codes Types LT polys L HP) as G.
  destruct (C81_vtk2_characters C K m types codes name Z Cells Uniq HV SV SC SF Types LT D N1 N2) as (s & m' & Es & Er & _).
  exists s, m'. split; [exact Es|]. split; [exact Er|].
  destruct (C25_vtk2_roundtrip m (near K 0) types codes [] Cells Uniq SC SF Types LT (fun H => H) D) as (ts & m3 & Ew & El & _).
  assert (Ets : ts = vtk_body (written2 m (near K 0) codes polys)).
  { unfold writeVTK2 in Ew. rewrite E in Ew. cbn [bind] in Ew. rewrite (emit2_spec m (near K 0) types codes Types LT polys L) in Ew. congruence. }
  assert (O : oriented polys).
  { apply (rows_oriented m polys LL Uniq). intros c vs Hc. destruct (HP c vs Hc) as (es & R & _ & EI). exists es. auto. }
  set (T1 := [Vw "#"%string; Vw "vtk"%string; Vw "DataFile"%string; Vw "Version"%string; Vw "2.0"%string] : list (vtok C)).
  assert (OT : one_line T1) by (unfold one_line, T1; simpl; intuition discriminate).
  destruct (rewrite_rows (written2 m (near K 0) codes polys) T1 [] [] (emptyMesh 2) [] G O OT (fun H => H) eq_refl eq_refl) as (m2 & t2 & E2 & V2 & L2 & I2).
  rewrite app_nil_r in E2. rewrite Ets in El. change (writeHeader [] ++ vtk_body (written2 m (near K 0) codes polys)) with (vtk_header T1 [] ++ vtk_body (written2 m (near K 0) codes polys)) in El.
  rewrite E2 in El. injection El as <- ->. cbn [written2 vf_cells] in L2, I2.
  assert (SM : small_file (length (m_verts m)) polys codes).
  { pose proof INVALID_64 as I64. pose proof (Forall2_length' _ _ _ Types) as LC. constructor.
    - lia.
    - rewrite L. lia.
    - intros l Hl. apply In_nth_error in Hl as [i Hi]. destruct (HP (N.of_nat i) l) as (es & R & B & _); [rewrite Nat2N.id; exact Hi|].
      apply (small_lt l (N.of_nat (length (m_verts m)))); [apply B| |lia]. apply (bounds_verts _ _ _ _ B). intros e k v Hk Hv.
      unfold edges2 in Hk. rewrite nth_error_map in Hk. destruct (nth_error (m_faces m) (N.to_nat e)) as [f|] eqn:Ef; [|discriminate]. injection Hk as <-.
      apply (HV f v); [eapply nth_error_In; exact Ef|exact Hv].
    - rewrite count_bound. pose proof (g2_size _ G) as GS. cbn [written2 vf_cells] in GS. rewrite L.
      eapply N.le_lt_trans; [apply N.add_le_mono; [exact SC|exact GS]|reflexivity].
    - rewrite <- LC, LT. lia.
    - apply (codes_small vtkCode2 types codes code2_small Types). }
  pose proof (text2 K m types codes polys E L Types LT) as Es2. rewrite Es in Es2. injection Es2 as ->.
  pose proof (Er []) as Er0. rewrite header_eq in Er0.
  rewrite (char_VTK2 K _ _ T1 [] (m_verts m) (near K 0) polys codes (emptyMesh 2) [] m2 types Z line1_free (conj N1 N2) OT (fun H => H) SM E2) in Er0.
  injection Er0 as <-.
  match goal with |- writeVTK2text K ?M types = _ => assert (IM : indexMesh2 M = Ok (polys, countWritten polys)) by exact I2 end.
  rewrite (text2 K _ types codes polys IM (eq_sym L2) Types (eq_trans LT (eq_trans (eq_sym L) (eq_sym L2)))). f_equal.
  cbn [m_verts]. unfold body2, sections. rewrite V2. cbn [written2 vf_pts]. rewrite !map_map.
  assert (PP : flat_map (putPoint2 K) (map (fun p => map2 (reread K) (fst p, snd p)) (m_verts m)) = flat_map (putPoint2 K) (m_verts m)).
  { clear - PK. induction (m_verts m) as [|p l IH]; [reflexivity|]. cbn [map flat_map]. rewrite IH. f_equal. unfold putPoint2, map2, reread. cbn [fst snd].
    assert (A : forall c, putC K (near K (round6 (val K c))) = putC K c) by (intros c; unfold putC; apply (round6_stable (val K c)); apply PK).
    rewrite !A. reflexivity. }
  unfold count. rewrite map_length. cbn [fst]. rewrite PP. reflexivity.
Qed.
Print Assumptions C111_vtk2_text.

(** * Instances: the triangle, quadrilateral and pentagon of C24; the two triangles of C81, one coordinate of which (1/3) is not printed exactly. *)
Lemma NoDup_disjoint {A} (ls : list (list A)) : NoDup (List.concat ls) -> forall c c' l l' x, nth_error ls c = Some l -> nth_error ls c' = Some l' -> In x l -> In x l' -> c = c'.
Proof.
  induction ls as [|k ls IH]; intros ND c c' l l' x Hc Hc' Hx Hx'; [destruct c; discriminate Hc|]. cbn [List.concat] in ND.
  assert (Out : forall d w, nth_error ls d = Some w -> In x k -> In x w -> False).
  { intros d w Hd Hk Hw. apply in_split in Hk as (u & v & ->). rewrite <- app_assoc in ND. cbn [app] in ND. apply NoDup_remove_2 in ND.
    apply ND, in_or_app. right. apply in_or_app. right. apply in_concat. exists w. split; [eapply nth_error_In; exact Hd|exact Hw]. }
  destruct c as [|c]; destruct c' as [|c']; cbn [nth_error] in Hc, Hc'.
  - reflexivity.
  - exfalso. injection Hc as <-. eauto.
  - exfalso. injection Hc' as <-. eauto.
  - f_equal. refine (IH _ c c' l l' x Hc Hc' Hx Hx'). clear - ND. induction k as [|a k IHk]; [exact ND|]. inversion ND; auto.
Qed.
Lemma oriented_check cells : NoDup (List.concat (map cyc_pairs cells)) -> oriented cells.
Proof.
  intros ND c c' vs vs' i j a b Hc Hc' H H'. apply cyc_pairs_nth, nth_error_In in H. apply cyc_pairs_nth, nth_error_In in H'.
  eapply (NoDup_disjoint _ ND c c'); [apply map_nth_error; exact Hc|apply map_nth_error; exact Hc'|exact H|exact H'].
Qed.
Example C111_instance : grid2_ok grid2 /\ oriented (vf_cells grid2) /\
  exists m types, loadVTK2 (header2 ++ vtk_body grid2) (emptyMesh 2) [] = Ok (m, types) /\ types = [TRIANGLE; QUAD; POLYGON] /\
    writeVTK2 0%N m types = Ok (vtk_body grid2).
Proof.
  assert (O : oriented (vf_cells grid2)).
  { apply oriented_check. cbn. repeat (constructor; [cbn; intuition discriminate|]). constructor. }
  split; [exact grid2_fine|]. split; [exact O|].
  destruct (C111_vtk2 N grid2 [Vw "#"%string; Vw "vtk"%string] [Vw "grid"%string] [] (emptyMesh 2) [] 0%N grid2_fine O) as (m & types & E & _ & H);
    [unfold one_line; cbn; intuition discriminate|unfold one_line; cbn; intuition discriminate|reflexivity|reflexivity|].
  rewrite app_nil_r in E. exists m, types. split; [exact E|]. split.
  - destruct C24_instance as (_ & m2 & t2 & E2 & _ & _ & ->). pose proof (eq_trans (eq_sym E) E2) as Q. injection Q as _ ->. reflexivity.
  - apply H; [|cbn; intuition|reflexivity]. intros p Hp. cbn in Hp. repeat destruct Hp as [<-|Hp]; try reflexivity. destruct Hp.
Qed.
Lemma triQ_cell c es : ring triQ c es -> c = 0%N \/ c = 1%N.
Proof.
  intros (f0 & r & _ & Hn & _). assert (H : N.to_nat c < length (m_cells triQ)) by (apply nth_error_Some; congruence). cbn in H. lia.
Qed.
Lemma triQ_left : left_on_left triQ.
Proof.
  assert (R0 : ring triQ 0%N [0;1;2]%N) by (apply ring_iff; vm_compute; reflexivity).
  assert (R1 : ring triQ 1%N [1;3;4]%N) by (apply ring_iff; vm_compute; reflexivity).
  intros c es R. pose proof (triQ_cell c es R) as Hc.
  destruct Hc as [-> | ->].
  - rewrite (P_Apply.ring_det _ _ _ _ R R0). exists [0;1;2]%N. split; [split; [split; [nodup_N|simpl; lia]|exists [0;1;2]%N; split; [apply Permutation_refl|split; [nodup_N|]]]|].
    + apply sides_of_iff. cbn. repeat (constructor; [first [left; reflexivity|right; reflexivity]|]). constructor.
    + intros e f a b He _ Hf Hs. destruct He as [<-|[<-|[<-|[]]]]; vm_compute in Hf; injection Hf as <-; injection Hs as <- <-;
        [exists 0|exists 1|exists 2]; split; reflexivity.
  - rewrite (P_Apply.ring_det _ _ _ _ R R1). exists [2;1;3]%N. split; [split; [split; [nodup_N|simpl; lia]|exists [1;4;3]%N; split; [apply perm_skip, perm_swap|split; [nodup_N|]]]|].
    + apply sides_of_iff. cbn. repeat (constructor; [first [left; reflexivity|right; reflexivity]|]). constructor.
    + assert (Only : forall e, In e [3;4]%N -> (exists c' es', c' <> 1%N /\ ring triQ c' es' /\ In e es') -> False).
      { intros e He (c' & es' & N1 & R' & Hin). assert (c' = 0%N) by (destruct (triQ_cell c' es' R'); congruence). subst c'.
        rewrite (P_Apply.ring_det _ _ _ _ R' R0) in Hin. cbn in He, Hin. lia. }
      intros e f a b He Sh Hf Hs. destruct He as [<-|[<-|[<-|[]]]].
      * vm_compute in Hf. injection Hf as <-. injection Hs as <- <-. exists 0. split; reflexivity.
      * exfalso. destruct Sh as [Sh|Sh]; [discriminate Sh|]. apply (Only 3%N); [cbn; auto|exact Sh].
      * exfalso. destruct Sh as [Sh|Sh]; [discriminate Sh|]. apply (Only 4%N); [cbn; auto|exact Sh].
Qed.
Example C111_instance_text : exists s m', writeVTK2text exactQ triQ [TRIANGLE; TRIANGLE] = Ok s /\
  readVTK2 exactQ (headerText (str "two triangles") ++ s) (emptyMesh 2) [] = Ok (m', [TRIANGLE; TRIANGLE]) /\
  writeVTK2text exactQ m' [TRIANGLE; TRIANGLE] = Ok s /\ m_verts m' <> m_verts triQ.
Proof.
  destruct C81_instance2 as (Z & Cells & s0 & m0 & Es0 & Er0 & V0 & V0').
  assert (Uniq : forall e e' a b, joins (edges2 triQ) e a b -> joins (edges2 triQ) e' a b -> e = e').
  { intros e e' a b H H'. unfold joins in *. change (edges2 triQ) with (edges2 twoTriangles) in *.
    apply N2Nat.inj. destruct (N.to_nat e) as [|[|[|[|[|k]]]]]; destruct (N.to_nat e') as [|[|[|[|[|k']]]]]; try reflexivity; exfalso; cbn in H, H';
      repeat match goal with K : _ \/ _ |- _ => destruct K end; try (destruct k; discriminate); try (destruct k'; discriminate); congruence. }
  assert (S1 : (N.of_nat 4 <= INVALID)%N) by (apply N.leb_le; reflexivity). assert (S2 : (N.of_nat 2 <= INVALID)%N) by (apply N.leb_le; reflexivity). assert (S3 : (N.of_nat 10 <= INVALID)%N) by (apply N.leb_le; reflexivity).
  destruct (C111_vtk2_text Q exactQ triQ [TRIANGLE; TRIANGLE] [5; 5]%N (str "two triangles") exactQ_precise triQ_left Z Cells Uniq) as (s & m' & Es & Er & Ew).
  - intros f v Hf Hv. cbn in Hf. repeat (destruct Hf as [<-|Hf]; [cbn in Hv; cbn; lia|]). destruct Hf.
  - exact S1. - exact S2. - exact S3.
  - repeat constructor.
  - reflexivity.
  - reflexivity.
  - cbn. intuition discriminate.
  - cbn. lia.
  - exists s, m'. split; [exact Es|]. specialize (Er []). rewrite app_nil_r in Er. split; [exact Er|]. split; [exact Ew|].
    assert (s0 = s) by congruence. subst s0. assert (m0 = m') by congruence. subst m0. intros Q. rewrite Q, V0 in V0'. discriminate V0'.
Qed.

(** C81: VTK files as characters. *)
From Coq Require Import String Ascii QArith Qabs Permutation.
From Verif Require Import Base P_Base M_Conn S_Conn M_Mesh M_Connections S_Mesh M_Text M_Print M_Stream P_Stream S_Stream P_Stream2
  M_FPMA M_VTK M_VTKWrite M_FileText S_FileText S_FPMA S_VTK P_Poly P_FPMA P_FPMAWrite P_RoundTrip P_VTK P_VTKWrite P_Tess S_Tess S_Solid P_Solid P_Solid2
  P_FileText P_FPMAText P_VTKText T_FPMA T_VTK T_VTKWrite T_Solid Ex_Mesh T_FileText.
Local Open Scope nat_scope.
Local Open Scope list_scope.

Lemma header_eq name r : headerText name ++ r = header (str "# vtk DataFile Version 2.0") name r.
Proof.
  unfold headerText, header. change (str "DATASET UNSTRUCTURED_GRID") with (str "DATASET" ++ blank :: str "UNSTRUCTURED_GRID").
  repeat (rewrite <- !app_assoc; cbn [app]). reflexivity.
Qed.
Lemma line1_free : free_line (str "# vtk DataFile Version 2.0").
Proof. split; [intros H; cbn in H; intuition discriminate|vm_compute; lia]. Qed.
Lemma typesText_ok conv ts cs : Forall2 (fun t n => conv t = Some n) ts cs -> typesText conv ts = Ok (flat_map (fun n => putN n ++ [nl]) cs).
Proof.
  intros H. unfold typesText.
  assert (E : mapM (fun t => match conv t with Some n => Ok n | None => Throw end) ts = Ok cs).
  { apply mapM_ok. eapply Forall2_mono; [|exact H]. intros t n' E. rewrite E. reflexivity. }
  rewrite E. reflexivity.
Qed.
Lemma code2_small t n : vtkCode2 t = Some n -> (n < 2 ^ 31)%N.
Proof. destruct t; intros H; inversion H; reflexivity. Qed.
Lemma code3_small t n : vtkCode3 t = Some n -> (n < 2 ^ 31)%N.
Proof. destruct t; intros H; inversion H; reflexivity. Qed.
Lemma codes_small (conv : etype -> option N) ts cs : (forall t n, conv t = Some n -> (n < 2 ^ 31)%N) -> Forall2 (fun t n => conv t = Some n) ts cs -> forall n, In n cs -> (n < 2 ^ 31)%N.
Proof. intros H F n Hn. destruct (Forall2_In_r _ _ _ _ F Hn) as (t & _ & E). eauto. Qed.

Section VTKText2.
Context {C : Type}.
Variable K : fp C.
Lemma map2_copy (l : list (C * C)) : Forall2 (copy2 K) l (map (map2 (reread K)) l).
Proof. induction l as [|p l IH]; constructor; [|exact IH]. split; apply reread_copy. Qed.
Lemma map3_copy (l : list (C * C * C)) : Forall2 (copy3 K) l (map (map3 (reread K)) l).
Proof. induction l as [|p l IH]; constructor; [|exact IH]. repeat split; apply reread_copy. Qed.

(** The characters of a planar mesh: header line, name, then the sections. *)
Lemma text2 m types codes polys : indexMesh2 m = Ok (polys, countWritten polys) -> length polys = length (m_cells m) ->
  Forall2 (fun t n => vtkCode2 t = Some n) types codes -> length types = length (m_cells m) ->
  writeVTK2text K m types = Ok (body2 K (m_verts m) polys codes).
Proof.
  intros E L F LT. unfold writeVTK2text. rewrite E. cbn [bind]. unfold emitVTK2text. rewrite (typesText_ok _ _ _ F). cbn [bind fst snd].
  unfold body2, sections. pose proof (Forall2_length' _ _ _ F) as LC. rewrite L, <- LC, LT. reflexivity.
Qed.
Lemma bounds_verts edges es vs n : bounds edges es vs -> (forall e l v, nth_error edges (N.to_nat e) = Some l -> In v l -> (v < n)%N) -> forall v, In v vs -> (v < n)%N.
Proof.
  intros (P & es' & _ & _ & Ls & S) H v Hv. apply In_nth_error in Hv as [j Hj].
  assert (j < length vs) by (apply nth_error_Some; congruence). destruct (side_total vs j ltac:(lia)) as (a & b & Hs).
  assert (a = v) by (destruct Hs; congruence). subst a. destruct (nth_error es' j) as [e|] eqn:Ee; [|apply nth_error_None in Ee; lia].
  destruct (S j e v b Ee Hs) as [Q|Q]; apply (H _ _ v Q); simpl; auto.
Qed.
Lemma count_bound (rows : list (list N)) : countWritten rows = (N.of_nat (length rows) + N.of_nat (length (List.concat rows)))%N.
Proof.
  unfold countWritten. induction rows as [|r rows IH]; [reflexivity|]. cbn [map list_sum length List.concat fold_right]. rewrite app_length.
  change (fold_right Nat.add 0 (map (fun vs => S (length vs)) rows)) with (list_sum (map (fun vs => S (length vs)) rows)). lia.
Qed.
End VTKText2.

(** A planar mesh written and read, character by character. [name]: the data set's name given to writeHeader. *)
Theorem C81_vtk2_characters : forall C (K : fp C) (m : Mesh (C * C)) types codes name,
  (val K (near K 0) == 0)%Q ->
  (forall c, (c < N.of_nat (length (m_cells m)))%N -> exists es vs, ring m c es /\ bounds (edges2 m) es vs) ->
  (forall e e' a b, joins (edges2 m) e a b -> joins (edges2 m) e' a b -> e = e') ->
  (forall f v, In f (m_faces m) -> In v (f_subs f) -> (v < N.of_nat (length (m_verts m)))%N) ->
  (N.of_nat (length (m_verts m)) <= INVALID)%N -> (N.of_nat (length (m_cells m)) <= INVALID)%N -> (N.of_nat (2 * length (m_faces m)) <= INVALID)%N ->
  Forall2 (fun t n => vtkCode2 t = Some n) types codes -> length types = length (m_cells m) -> m_dim m = 2 ->
  ~ In nl name -> length name < 1024 ->
  exists s m', writeVTK2text K m types = Ok s /\ (forall after, readVTK2 K (headerText name ++ s ++ after) (emptyMesh 2) [] = Ok (m', types)) /\
    wf_mesh m' /\ m_dim m' = 2 /\ Forall2 (copy2 K) (m_verts m) (m_verts m') /\ length (m_cells m') = length (m_cells m) /\
    (forall e e' a b, joins (edges2 m') e a b -> joins (edges2 m') e' a b -> e = e') /\
    (forall c es, ring m c es -> exists es', ring m' c es' /\
       (forall vs, bounds (edges2 m) es vs <-> bounds (edges2 m') es' vs)).
Proof.
  intros C K m types codes name Z Cells Uniq HV SV SC SF Types LT D N1 N2.
  destruct (index2_spec m Cells) as (polys & E & L & HP).
  pose proof (written2_ok m (near K 0) Cells Uniq SC SF types codes Types LT polys L HP) as G.
  destruct (C25_vtk2_roundtrip m (near K 0) types codes [] Cells Uniq SC SF Types LT (fun H => H) D) as (ts & m' & Ew & El & D' & V' & L' & U' & R').
  assert (Ets : ts = vtk_body (written2 m (near K 0) codes polys)).
  { unfold writeVTK2 in Ew. rewrite E in Ew. cbn [bind] in Ew. rewrite (emit2_spec m (near K 0) types codes Types LT polys L) in Ew. congruence. }
  assert (SM : small_file (length (m_verts m)) polys codes).
  { pose proof INVALID_64 as I64. pose proof (Forall2_length' _ _ _ Types) as LC. constructor.
    - lia.
    - rewrite L. lia.
    - intros l Hl. apply In_nth_error in Hl as [i Hi]. destruct (HP (N.of_nat i) l) as (es & R & B & _); [rewrite Nat2N.id; exact Hi|].
      apply (small_lt l (N.of_nat (length (m_verts m)))); [apply B| |lia]. apply (bounds_verts _ _ _ _ B). intros e k v Hk Hv.
      unfold edges2 in Hk. rewrite nth_error_map in Hk. destruct (nth_error (m_faces m) (N.to_nat e)) as [f|] eqn:Ef; [|discriminate]. injection Hk as <-.
      apply (HV f v); [eapply nth_error_In; exact Ef|exact Hv].
    - rewrite count_bound. pose proof (g2_size _ G) as GS. cbn [written2 vf_cells] in GS. rewrite L.
      eapply N.le_lt_trans; [apply N.add_le_mono; [exact SC|exact GS]|reflexivity].
    - rewrite <- LC, LT. lia.
    - apply (codes_small vtkCode2 types codes code2_small Types). }
  exists (body2 K (m_verts m) polys codes). eexists. split; [apply text2; assumption|].
  set (T1 := [Vw "#"; Vw "vtk"; Vw "DataFile"; Vw "Version"; Vw "2.0"] : list (vtok C)).
  assert (W' : wf_mesh m').
  { assert (HR : forall vs v, In vs (vf_cells (written2 m (near K 0) codes polys)) -> In v vs -> (v < N.of_nat (length (vf_pts (written2 m (near K 0) codes polys))))%N).
    { intros l v Hl. cbn [written2 vf_cells vf_pts] in *. rewrite map_length. revert v. apply In_nth_error in Hl as [i Hi].
      destruct (HP (N.of_nat i) l) as (es & R & B & _); [rewrite Nat2N.id; exact Hi|]. apply (bounds_verts _ _ _ _ B). intros e k v Hk Hv.
      unfold edges2 in Hk. rewrite nth_error_map in Hk. destruct (nth_error (m_faces m) (N.to_nat e)) as [f|] eqn:Ef; [|discriminate]. injection Hk as <-.
      apply (HV f v); [eapply nth_error_In; exact Ef|exact Hv]. }
    destruct (C24_vtk2_wf (written2 m (near K 0) codes polys) T1 [] [] (emptyMesh 2) [] G) as (m2 & t2 & E2 & W2);
      [unfold one_line, T1; simpl; intuition discriminate|intros []|reflexivity|reflexivity|exact HR|].
    rewrite Ets in El. rewrite app_nil_r in E2. change (vtk_header T1 [] ++ vtk_body (written2 m (near K 0) codes polys)) with (writeHeader [] ++ vtk_body (written2 m (near K 0) codes polys)) in E2.
    rewrite El in E2. injection E2 as <- _. exact W2. }
  split; [|split; [|split; [|split; [|split; [|split]]]]].
  - intros after. rewrite header_eq. apply (char_VTK2 K _ _ T1 [] (m_verts m) (near K 0) polys codes (emptyMesh 2) [] m' types Z line1_free); [split; assumption| |intros []|exact SM|].
    + unfold one_line, T1. simpl. intuition discriminate.
    + rewrite Ets in El. exact El.
  - apply (wf_with_verts _ _ m'); try reflexivity; [exact W'|cbn [m_verts]; symmetry; apply map_length].
  - exact D'.
  - cbn [m_verts]. rewrite V'. apply map2_copy.
  - exact L'.
  - exact U'.
  - intros c es R. destruct (R' c es R) as (es' & R2 & B2). exists es'. split; [|exact B2]. apply (ring_ext _ _ m'); [reflexivity|reflexivity|exact R2].
Qed.
Print Assumptions C81_vtk2_characters.

(** * Three dimensions *)
Section VTKText3.
Context {C : Type}.
Variable K : fp C.
Variables (ori : list (list bool)) (ccenter fcenter : N -> C * C * C).
Lemma text3 (m : Mesh (C * C * C)) types t : wf_mesh m -> m_dim m = 3 -> indexMesh3 ori ccenter fcenter (centerKey K) m types = Ok t ->
  exists codes, Forall2 (fun x n => vtkCode3 (snd x) = Some n) (t_cells t) codes /\
    writeVTK3 ori ccenter fcenter (centerKey K) m types = Ok (vtk_body (mkVtk (m_verts m ++ t_verts t) (map fst (t_cells t)) codes)) /\
    writeVTK3text K ori ccenter fcenter m types = Ok (body3 K (m_verts m ++ t_verts t) (map fst (t_cells t)) codes).
Proof.
  intros W D E. destruct (C29_text ori ccenter fcenter (centerKey K) m types t W D E) as (codes & EW & F). exists codes. split; [exact F|]. split; [exact EW|].
  unfold writeVTK3text. rewrite E. cbn [bind]. unfold emitVTK3text.
  assert (F' : Forall2 (fun ty n => vtkCode3 ty = Some n) (map snd (t_cells t)) codes) by (rewrite Forall2_map_l; exact F).
  rewrite (typesText_ok _ _ _ F'). cbn [bind]. f_equal. pose proof (Forall2_length' _ _ _ F) as LC.
  unfold body3, sections, count. rewrite app_length, map_length, <- LC, flat_map_app. repeat rewrite <- app_assoc. reflexivity.
Qed.
End VTKText3.

(** Whatever the 3D writer writes (native cells or tetrahedra with appended centres), reading its characters gives what
    reading its tokens gives, the coordinates rounded to six digits. The numbers written have to fit the index type. *)
Theorem C81_vtk3_text : forall C (K : fp C) ori ccenter fcenter (m : Mesh (C * C * C)) types t,
  wf_mesh m -> m_dim m = 3 -> indexMesh3 ori ccenter fcenter (centerKey K) m types = Ok t ->
  (N.of_nat (length (m_verts m) + length (t_verts t)) < 2 ^ 64)%N -> (N.of_nat (length (t_cells t)) < 2 ^ 64)%N ->
  (forall vs ty, In (vs, ty) (t_cells t) -> (N.of_nat (length vs) < 2 ^ 62)%N /\ forall v, In v vs -> (v < 2 ^ 64)%N) ->
  exists ts s, writeVTK3 ori ccenter fcenter (centerKey K) m types = Ok ts /\ writeVTK3text K ori ccenter fcenter m types = Ok s /\
    forall reserve name m0 old m' types', ~ In nl name -> length name < 1024 ->
      loadVTK3 reserve (writeHeader [] ++ ts) m0 old = Ok (m', types') ->
      exists vs, Forall2 (copy3 K) (m_verts m') vs /\
        forall after, readVTK3 K reserve (headerText name ++ s ++ after) m0 old = Ok (mkMesh (m_dim m') vs (m_mid m') (m_faces m') (m_cells m') (m_bcells m'), types').
Proof.
  intros C K ori ccenter fcenter m types t W D E S1 S2 S3. destruct (text3 K ori ccenter fcenter m types t W D E) as (codes & F & Ew & Es).
  eexists _, _. split; [exact Ew|]. split; [exact Es|]. intros reserve name m0 old m' types' N1 N2 El.
  exists (map (map3 (reread K)) (m_verts m')). split; [apply map3_copy|]. intros after. rewrite header_eq.
  set (T1 := [Vw "#"; Vw "vtk"; Vw "DataFile"; Vw "Version"; Vw "2.0"] : list (vtok C)).
  apply (char_VTK3 K reserve _ _ T1 [] _ _ codes m0 old m' types' line1_free); [split; assumption| |intros []| |exact El].
  - unfold one_line, T1. simpl. intuition discriminate.
  - pose proof (Forall2_length' _ _ _ F) as LC. constructor.
    + rewrite app_length. exact S1.
    + rewrite map_length. exact S2.
    + intros l Hl. apply in_map_iff in Hl as ([vs ty] & <- & Hx). destruct (S3 vs ty Hx) as [A B]. split; [cbn [fst]; lia|exact B].
    + rewrite count_bound, map_length.
      assert (B : (N.of_nat (length (List.concat (map fst (t_cells t)))) <= N.of_nat (length (t_cells t)) * 2 ^ 62)%N).
      { clear - S3. induction (t_cells t) as [|[vs ty] l IH]; [reflexivity|]. cbn [map List.concat fst length]. rewrite app_length.
        destruct (S3 vs ty (or_introl eq_refl)) as [A _]. specialize (IH (fun a b H => S3 a b (or_intror H))). lia. }
      eapply N.le_lt_trans; [apply N.add_le_mono_l; exact B|].
      apply N.lt_le_trans with (2 ^ 64 + 2 ^ 64 * 2 ^ 62)%N; [|discriminate].
      apply N.add_lt_le_mono; [exact S2|]. apply N.mul_le_mono_r. lia.
    + rewrite <- LC. exact S2.
    + apply (codes_small vtkCode3 (map snd (t_cells t)) codes code3_small). rewrite Forall2_map_l. exact F.
Qed.
Print Assumptions C81_vtk3_text.

(** A mesh of tetrahedra, pyramids, wedges and hexahedra declared as such, written and read. *)
Theorem C81_vtk3_characters : forall C (K : fp C) ori ccenter fcenter (m : Mesh (C * C * C)) types reserve name,
  wf_mesh m -> m_dim m = 3 ->
  Forall2 (fun o f => length o = length (f_subs f)) ori (m_faces m) ->
  length types = length (m_cells m) ->
  (forall c ty, nth_error types (N.to_nat c) = Some ty -> exists vs, is_solid m c vs /\ solid_size ty = Some (length vs)) ->
  (forall f g p q, face_polygon m f p -> face_polygon m g q -> same_sides p q -> f = g) ->
  (N.of_nat (6 * length (m_cells m)) <= INVALID)%N -> (N.of_nat (length (m_verts m)) <= INVALID)%N ->
  ~ In nl name -> length name < 1024 -> reserve = 0 \/ 4 <= reserve ->
  exists s m', writeVTK3text K ori ccenter fcenter m types = Ok s /\
    (forall after, readVTK3 K reserve (headerText name ++ s ++ after) (emptyMesh 3) [] = Ok (m', types)) /\
    wf_mesh m' /\ m_dim m' = 3 /\ Forall2 (copy3 K) (m_verts m) (m_verts m') /\ length (m_cells m') = length (m_cells m) /\
    exists phi : N -> N,
      (forall c fs, ring m c fs -> exists fs', ring m' c fs' /\ Permutation (map phi fs) fs') /\
      (forall c fs f p, ring m c fs -> In f fs -> (face_polygon m f p <-> face_polygon m' (phi f) p)) /\
      (forall c c' fs fs' f g, ring m c fs -> In f fs -> ring m c' fs' -> In g fs' -> phi f = phi g -> f = g) /\
      (forall f', (f' < N.of_nat (length (m_faces m')))%N -> exists c fs f, ring m c fs /\ In f fs /\ f' = phi f).
Proof.
  intros C K ori ccenter fcenter m types reserve name W D O LT T UF SZ SV N1 N2 HR.
  destruct (C65_vtk3_roundtrip ori ccenter fcenter (centerKey K) m types reserve [] W D O LT T UF SZ (fun H => H) HR)
    as (ts & m' & Ew & El & W' & D' & V' & L' & _ & _ & phi & P1 & P2 & P3 & P4).
  destruct (written3_index ori ccenter fcenter (centerKey K) m types W D O LT T UF SZ) as (t & rows & codes & Ei & Tv & Er & _ & FC & Lr & Hr).
  pose proof INVALID_64 as I64.
  assert (Lcs : length (t_cells t) = length (m_cells m)) by (rewrite <- Lr, Er, map_length; reflexivity).
  destruct (C81_vtk3_text C K ori ccenter fcenter m types t W D Ei) as (ts' & s & Ew' & Es & Rd).
  - rewrite Tv. cbn [length]. lia.
  - rewrite Lcs. lia.
  - intros vs ty Hx. assert (Hv : In vs rows) by (rewrite Er; apply in_map_iff; exists (vs, ty); auto).
    apply In_nth_error in Hv as [i Hi]. destruct (Hr (N.of_nat i) vs) as (Sol & NV); [rewrite Nat2N.id; exact Hi|]. split.
    + simpl in NV. destruct NV as [<-|[<-|[<-|[<-|[]]]]]; reflexivity.
    + intros v Hv. pose proof (solid_verts ccenter fcenter (centerKey K) m types W D LT T UF SZ (N.of_nat i) vs v Sol NV Hv). lia.
  - rewrite Ew in Ew'. injection Ew' as <-. destruct (Rd reserve name (emptyMesh 3) [] m' types N1 N2 El) as (vs & Cv & Er').
    eexists s, _. split; [exact Es|]. split; [exact Er'|]. pose proof (Forall2_length' _ _ _ Cv) as Lv.
    split; [apply (wf_with_verts _ _ m'); try reflexivity; [exact W'|exact Lv]|]. split; [exact D'|]. split; [cbn [m_verts]; rewrite <- V'; exact Cv|]. split; [exact L'|].
    exists phi. split; [|split; [exact P2|split; [exact P3|exact P4]]].
    intros c fs R. destruct (P1 c fs R) as (fs' & R1 & Pm). exists fs'. split; [|exact Pm]. apply (ring_ext _ _ m'); [reflexivity|reflexivity|exact R1].
Qed.
Print Assumptions C81_vtk3_characters.

(** * Findings: the name *)
(** The reader expects exactly two lines before ASCII and skips at most 1024 characters of each. A name with a line break,
    or longer than 1024 characters, makes the file unreadable (unless by chance the next word is ASCII). *)
Lemma text_eqb_eq a : forall b, text_eqb a b = true -> a = b.
Proof.
  induction a as [|x a IH]; intros [|y b] H; try discriminate H; [reflexivity|]. cbn [text_eqb] in H. apply andb_true_iff in H as [H1 H2].
  apply Ascii.eqb_eq in H1. subst y. rewrite (IH b H2). reflexivity.
Qed.
Lemma drop_all n : forall p r, no_nl p -> length p = n -> drop_line n (p ++ r) = r.
Proof.
  induction n as [|n IH]; intros [|c p] r H L; try discriminate L; [reflexivity|]. cbn [app drop_line].
  destruct (Ascii.eqb_spec c nl) as [->|_]; [exfalso; apply H; left; reflexivity|]. apply IH; [|injection L; auto]. intros Q. apply H. right. exact Q.
Qed.
Section Bad.
Context {C : Type}.
Variable K : fp C.
Lemma not_ascii s (w r sp : text) : ign (charOps K) 1024 (ign (charOps K) 1024 (fileOf s)) = mkI (sp ++ w ++ r) false -> all_space sp = true -> stop r = true ->
  w <> [] -> forallb (fun c => negb (is_space c)) w = true -> w <> str "ASCII" ->
  (forall m old, readVTK2 K s m old = Throw) /\ (forall reserve m old, readVTK3 K reserve s m old = Throw).
Proof.
  intros E Hs Hr Hw Hn HA. assert (T : text_eqb w (str "ASCII") = false).
  { destruct (text_eqb w (str "ASCII")) eqn:T; [|reflexivity]. apply text_eqb_eq in T. contradiction. }
  split; intros; [unfold readVTK2, xVTK2, xVTK|unfold readVTK3, xVTK3, xVTK]; cbv zeta; rewrite E, rdW_word by assumption; rewrite T; reflexivity.
Qed.
End Bad.
Theorem C81_finding_name : forall C (K : fp C) name s p w r,
  (exists sp, name = p ++ nl :: sp ++ w ++ r /\ length p < 1024 /\ all_space sp = true) \/ (name = p ++ w ++ r /\ length p = 1024) ->
  ~ In nl p -> w <> [] -> forallb (fun c => negb (is_space c)) w = true -> stop r = true -> w <> str "ASCII" ->
  (forall m old, readVTK2 K (headerText name ++ s) m old = Throw) /\ (forall reserve m old, readVTK3 K reserve (headerText name ++ s) m old = Throw).
Proof.
  intros C K name s p w r H Hp Hw Hn Hr HA. destruct line1_free as [A1 B1].
  assert (HS : stop (r ++ nl :: str "ASCII" ++ nl :: str "DATASET" ++ blank :: str "UNSTRUCTURED_GRID" ++ nl :: s) = true) by (destruct r; [reflexivity|exact Hr]).
  rewrite header_eq. unfold header. destruct H as [(sp & -> & L & Hsp)|[-> L]].
  - apply (not_ascii K _ w (r ++ nl :: str "ASCII" ++ nl :: str "DATASET" ++ blank :: str "UNSTRUCTURED_GRID" ++ nl :: s) sp); try assumption.
    cbn [ign charOps]. unfold ignore, fileOf. cbn [failed chars]. rewrite drop_line_text by assumption.
    repeat (rewrite <- !app_assoc; cbn [app]). rewrite drop_line_text by assumption. reflexivity.
  - apply (not_ascii K _ w (r ++ nl :: str "ASCII" ++ nl :: str "DATASET" ++ blank :: str "UNSTRUCTURED_GRID" ++ nl :: s) []); try assumption; [|reflexivity].
    cbn [ign charOps]. unfold ignore, fileOf. cbn [failed chars]. rewrite drop_line_text by assumption.
    rewrite <- !app_assoc. rewrite drop_all by assumption. reflexivity.
Qed.
Print Assumptions C81_finding_name.

(** * Instances *)
(** Two triangles; one coordinate has more than six digits. *)
Definition triQ : Mesh (Q * Q) :=
  mkMesh 2 (map (fun p => (fst p # 3, snd p # 1)) (m_verts twoTriangles)) (m_mid twoTriangles) (m_faces twoTriangles) (m_cells twoTriangles) [].
Example C81_instance2 :
  (val exactQ (near exactQ 0) == 0)%Q /\
  (forall c, (c < N.of_nat (length (m_cells triQ)))%N -> exists es vs, ring triQ c es /\ bounds (edges2 triQ) es vs) /\
  exists s m', writeVTK2text exactQ triQ [TRIANGLE; TRIANGLE] = Ok s /\
    readVTK2 exactQ (headerText (str "two triangles") ++ s) (emptyMesh 2) [] = Ok (m', [TRIANGLE; TRIANGLE]) /\
    nth_error (m_verts triQ) 1 = Some (1 # 3, 0 # 1)%Q /\ nth_error (m_verts m') 1 = Some (333333 # 1000000, 0)%Q.
Proof.
  split; [reflexivity|]. split.
  - intros c Hc. destruct C25_instance as [A _]. destruct (A c Hc) as (es & vs & R & B). exists es, vs. split; [apply (ring_ext _ _ twoTriangles); [reflexivity|reflexivity|exact R]|exact B].
  - destruct (writeVTK2text exactQ triQ [TRIANGLE; TRIANGLE]) as [s| | |] eqn:E; [|vm_compute in E; discriminate..]. vm_compute in E. injection E as <-.
    eexists; eexists. split; [reflexivity|]. split; [vm_compute; reflexivity|]. split; reflexivity.
Qed.
(** The two prisms of MeshSetup.h, as wedges, and the second one tessellated. *)
Example C81_instance3 :
  (exists s m', writeVTK3text exactQ prismOri (fun _ => (0, 0, 0)%Q) (fun _ => (0, 0, 0)%Q) thirds [WEDGE; WEDGE] = Ok s /\
    readVTK3 exactQ 4 (headerText (str "prisms") ++ s) (emptyMesh 3) [] = Ok (m', [WEDGE; WEDGE]) /\
    length (m_faces m') = 9 /\ nth_error (m_verts m') 1 = Some (333333 # 1000000, 0, 0)%Q) /\
  (exists s m' ty, writeVTK3text exactQ prismOri (fun c => (Z.of_N c # 7, 0, 0)%Q) (fun f => (Z.of_N f # 11, 1 # 2, 0)%Q) thirds [WEDGE; POLYHEDRON] = Ok s /\
    readVTK3 exactQ 4 (headerText (str "prisms") ++ s) (emptyMesh 3) [] = Ok (m', ty) /\ length (m_cells m') = 19 /\ length (m_verts m') = 14 /\ length ty = 19).
Proof.
  split.
  - destruct (writeVTK3text exactQ prismOri (fun _ => (0, 0, 0)%Q) (fun _ => (0, 0, 0)%Q) thirds [WEDGE; WEDGE]) as [s| | |] eqn:E; [|vm_compute in E; discriminate..]. vm_compute in E. injection E as <-.
    eexists; eexists. split; [reflexivity|]. split; [vm_compute; reflexivity|]. split; reflexivity.
  - destruct (writeVTK3text exactQ prismOri (fun c => (Z.of_N c # 7, 0, 0)%Q) (fun f => (Z.of_N f # 11, 1 # 2, 0)%Q) thirds [WEDGE; POLYHEDRON]) as [s| | |] eqn:E; [|vm_compute in E; discriminate..]. vm_compute in E. injection E as <-.
    eexists; eexists; eexists. split; [reflexivity|]. split; [vm_compute; reflexivity|]. split; [reflexivity|]. split; reflexivity.
Qed.
Example C81_instance_name : readVTK2 exactQ (headerText (str "first line" ++ [nl] ++ str "second line") ++ str "POINTS 0 double") (emptyMesh 2) [] = Throw.
Proof. vm_compute. reflexivity. Qed.

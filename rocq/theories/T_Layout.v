(** C85, C86: mesh files of any layout. *)
From Coq Require Import String Ascii QArith.
From Verif Require Import Base P_Base M_Conn M_Mesh M_Connections S_Mesh M_Text M_Print M_Stream P_Stream M_FPMA M_VTK M_FileText S_FPMA S_VTK P_FPMA P_VTK
  P_RoundTrip P_FileText P_VTKText S_Layout P_Layout P_Apply Ex_Mesh T_FPMA T_VTK T_VTK3 T_FileText T_VTKText.
Local Open Scope nat_scope.
Local Open Scope list_scope.

(** * C85: FPMA *)
(** The reader takes numbers in any decimal notation (signs, leading zeros, point, exponent), separated by any white space (blanks, tabs, line ends of
    Unix and Windows), and ignores what follows the last number: the mesh depends on the numbers only. *)
Theorem C85_fpma_layout : forall C (K : fp C) reserve (F : fpma_file C) ws s rest,
  file_ok F -> (reserve = 0 \/ forall p, In p (ff_polys F) -> length p <= reserve) ->
  words ws s rest -> Forall2 (shows K) ws (layout F) ->
  exists m, readFPMA K reserve s (emptyMesh 3) = Ok m /\
    m_dim m = 3 /\ m_verts m = ff_verts F /\
    Forall2 (fun f poly => sides_of (mesh_edges m) (f_subs f) poly) (m_faces m) (ff_polys F) /\
    (forall e e' a b, joins (mesh_edges m) e a b -> joins (mesh_edges m) e' a b -> e = e') /\
    (forall i, i < length (mesh_edges m) -> exists f, In f (m_faces m) /\ In (N.of_nat i) (f_subs f)) /\
    length (m_cells m) = length (ff_cells F) /\
    (forall c fs, nth_error (ff_cells F) (N.to_nat c) = Some fs -> ring m c fs) /\
    (forall i f, nth_error (m_faces m) i = Some f ->
       cellLeft (bc (f_conn f)) = nth 0 (listing (ff_cells F) (N.of_nat i)) INVALID /\
       cellRight (bc (f_conn f)) = nth 1 (listing (ff_cells F) (N.of_nat i)) INVALID).
Proof.
  intros C K reserve F ws s rest FO HR HW HS. destruct (load_spec reserve F [] FO HR) as (m & edges & E & D & Ev & Em & _ & F2 & Un & Cov & Lc & Ri & LR).
  rewrite app_nil_r in E. exists m. split; [apply (layout_FPMA K rest reserve (layout F) ws s (emptyMesh 3) m HW HS E)|]. unfold mesh_edges. rewrite Em. cbn [nth]. auto 12.
Qed.
Print Assumptions C85_fpma_layout.
(** Whatever the mesh already contains: two files with the same numbers give the same result. *)
Theorem C85_fpma_same_numbers : forall C (K : fp C) reserve ts ws ws' s s' rest rest' m m',
  words ws s rest -> Forall2 (shows K) ws ts -> words ws' s' rest' -> Forall2 (shows K) ws' ts ->
  loadFPMA reserve ts m = Ok m' -> readFPMA K reserve s m = Ok m' /\ readFPMA K reserve s' m = Ok m'.
Proof. intros C K reserve ts ws ws' s s' rest rest' m m' A B A' B' E. split; eapply layout_FPMA; eassumption. Qed.
Print Assumptions C85_fpma_same_numbers.

(** * C86: VTK *)
(** The same for legacy VTK files, except that the line with the number of points and the line with the number of cells have to end where they do
    in the format, and within 20 and 50 characters. *)
Theorem C86_vtk2_layout : forall C (K : fp C) (F : vtk_file C) s (m0 : Mesh (C * C)) old,
  vtk_text K F s -> grid2_ok F -> m_dim m0 = 2 -> m_mid m0 = [] ->
  exists m types ess, readVTK2 K s m0 old = Ok (m, types) /\
    m_dim m = 2 /\ m_mid m = [] /\ m_verts m = map fst (vf_pts F) /\
    length (m_cells m) = length (vf_cells F) /\
    Forall2 (sides_of (edges2 m)) ess (vf_cells F) /\
    (forall c es, nth_error ess (N.to_nat c) = Some es -> ring m c es) /\
    (forall e e' a b, joins (edges2 m) e a b -> joins (edges2 m) e' a b -> e = e') /\
    (forall e, (e < N.of_nat (length (edges2 m)))%N -> exists es, In es ess /\ In e es) /\
    (forall i f, nth_error (m_faces m) i = Some f ->
       cellLeft (bc (f_conn f)) = nth 0 (listing ess (N.of_nat i)) INVALID /\
       cellRight (bc (f_conn f)) = nth 1 (listing ess (N.of_nat i)) INVALID) /\
    length types = length (vf_cells F) /\
    (forall i code t, nth_error (vf_types F) i = Some code -> vtk_code2 code t -> nth_error types i = Some t).
Proof.
  intros C K F s m0 old (l1 & l2 & wn & wp & wc & wr & wt & wk & e1 & e2 & rest & s1 & s2 & s3 & -> & A1 & A2 & A3 & A4 & B1 & B2 & B3 & B4 & B5 & B6 & B7 & B8 & B9 & B10 & B11) G HD HM.
  destruct (C24_vtk2_read F [] [] [] m0 old G (fun H => H) (fun H => H) HD HM) as (m & types & ess & E & D & M & V & Lc & S & R & U & Cv & LR & _).
  destruct (C26_types2 F [] [] [] m0 old G (fun H => H) (fun H => H) HD HM) as (m2 & types2 & E2 & LT & T & _).
  rewrite E in E2. injection E2 as <- <-.
  rewrite app_nil_r in E. exists m, types, ess.
  split; [apply (whole2 K F l1 l2 wn wp wc wr wt wk e1 e2 rest s1 s2 s3 (conj A1 A3) (conj A2 A4) B1 B2 B3 B4 B5 B6 B7 B8 B9 B10 B11 [] [] m0 old m types (fun H => H) (fun H => H) E)|].
  do 8 (split; [assumption|]). split; [|split; assumption].
  intros i f Hf. destruct (LR i f Hf) as (X & Y & _). auto.
Qed.
Print Assumptions C86_vtk2_layout.
Theorem C86_vtk3_layout : forall C (K : fp C) (F : vtk_file C) reserve s (m0 : Mesh (C * C * C)) old,
  vtk_text K F s -> grid3_ok F -> (reserve = 0 \/ forall vs p, In vs (vf_cells F) -> In p (faces_of vs) -> length p <= reserve) ->
  m_dim m0 = 3 -> length (m_mid m0) = 1 ->
  exists m types edges ess, readVTK3 K reserve s m0 old = Ok (m, types) /\
    m_dim m = 3 /\ m_mid m = [edges] /\ m_verts m = vf_pts F /\
    length (m_cells m) = length (vf_cells F) /\
    Forall2 (fun es vs => Forall2 (fun f p => exists fc, nth_error (m_faces m) (N.to_nat f) = Some fc /\ bounds edges (f_subs fc) p) es (faces_of vs))
            ess (vf_cells F) /\
    (forall c es, nth_error ess (N.to_nat c) = Some es -> ring m c es) /\
    (forall e e' a b, joins edges e a b -> joins edges e' a b -> e = e') /\
    (forall i j f g p q, nth_error (m_faces m) i = Some f -> nth_error (m_faces m) j = Some g ->
       bounds edges (f_subs f) p -> bounds edges (f_subs g) q -> same_sides p q -> i = j) /\
    (forall i, i < length (m_faces m) -> exists es, In es ess /\ In (N.of_nat i) es) /\
    (forall i, i < length edges -> exists f, In f (m_faces m) /\ In (N.of_nat i) (f_subs f)) /\
    (forall i f, nth_error (m_faces m) i = Some f ->
       cellLeft (bc (f_conn f)) = nth 0 (listing ess (N.of_nat i)) INVALID /\
       cellRight (bc (f_conn f)) = nth 1 (listing ess (N.of_nat i)) INVALID) /\
    length types = length (vf_cells F) /\
    (forall i code t, nth_error (vf_types F) i = Some code -> vtk_code3 code t -> nth_error types i = Some t).
Proof.
  intros C K F reserve s m0 old (l1 & l2 & wn & wp & wc & wr & wt & wk & e1 & e2 & rest & s1 & s2 & s3 & -> & A1 & A2 & A3 & A4 & B1 & B2 & B3 & B4 & B5 & B6 & B7 & B8 & B9 & B10 & B11) G HR HD HM.
  destruct (C28_vtk3_read F reserve [] [] [] m0 old G HR (fun H => H) (fun H => H) HD HM) as (m & types & edges & ess & E & D & M & V & Lc & S & R & U & U2 & Cv & Cv2 & LR).
  destruct (C26_types3 F reserve [] [] [] m0 old G HR (fun H => H) (fun H => H) HD HM) as (m2 & types2 & E2 & LT & T & _).
  rewrite E in E2. injection E2 as <- <-.
  rewrite app_nil_r in E. exists m, types, edges, ess.
  split; [apply (whole3 K F l1 l2 wn wp wc wr wt wk e1 e2 rest s1 s2 s3 (conj A1 A3) (conj A2 A4) B1 B2 B3 B4 B5 B6 B7 B8 B9 B10 B11 reserve [] [] m0 old m types (fun H => H) (fun H => H) E)|].
  do 10 (split; [assumption|]). split; [|split; assumption].
  intros i f Hf. destruct (LR i f Hf) as (X & Y & _). auto.
Qed.
Print Assumptions C86_vtk3_layout.

(** * Instances *)
Local Open Scope string_scope.
Local Open Scope list_scope.
Definition tab : ascii := "009"%char.
Definition cr : ascii := "013"%char.
Lemma digits_of s : s <> [] -> forallb is_digit s = true -> digits s (value s).
Proof.
  induction s as [|c s IH] using rev_ind; [easy|]. intros _ H. rewrite forallb_app in H. apply andb_true_iff in H as [H1 H2]. cbn in H2. rewrite andb_true_r in H2.
  unfold is_digit in H2. destruct (digit c) as [d|] eqn:Ec; [|discriminate]. destruct s as [|c0 s].
  - cbn [app]. replace (value [c]) with d; [constructor; assumption|]. unfold value. cbn [fold_left]. unfold push_digit. rewrite Ec. lia.
  - rewrite value_app. cbn [fold_left]. unfold push_digit. rewrite Ec. constructor; [apply IH; [discriminate|exact H1]|exact Ec].
Qed.
Lemma index_plain s n : (negb (Nat.eqb (length s) 0) && forallb is_digit s && (value s =? n)%N && (n <? 2 ^ 64)%N)%bool = true -> index_word s n.
Proof.
  intros H. apply andb_true_iff in H as [H H4]. apply andb_true_iff in H as [H H3]. apply andb_true_iff in H as [H1 H2]. apply N.eqb_eq in H3. apply N.ltb_lt in H4.
  exists [], false, s, n. split; [constructor|]. split; [|auto]. rewrite <- H3. apply digits_of; [destruct s; [discriminate|easy]|exact H2].
Qed.
Lemma code_plain s n : (negb (Nat.eqb (length s) 0) && forallb is_digit s && (value s =? n)%N && (n <? 2 ^ 31)%N)%bool = true -> code_word s n.
Proof.
  intros H. apply andb_true_iff in H as [H H4]. apply andb_true_iff in H as [H H3]. apply andb_true_iff in H as [H1 H2]. apply N.eqb_eq in H3. apply N.ltb_lt in H4.
  exists [], s. split; [constructor|]. split; [|auto]. rewrite <- H3. apply digits_of; [destruct s; [discriminate|easy]|exact H2].
Qed.
(** A number with its parts given. *)
Definition sgn (neg plus : bool) : text := if neg then ["-"%char] else if plus then ["+"%char] else [].
Lemma signed_sgn neg plus : signed (sgn neg plus) neg. Proof. destruct neg, plus; constructor. Qed.
Lemma decimal_parts (neg plus : bool) (a b : text) (point : bool) (ex : option (bool * bool * text)) (q : Q) :
  a ++ b <> [] -> forallb is_digit a = true -> forallb is_digit b = true -> (point = true \/ b = []) ->
  match ex with None => True | Some (_, _, s) => s <> [] /\ forallb is_digit s = true end ->
  (q == (if neg then -1 # 1 else 1) * inject_Z (Z.of_N (value (a ++ b))) *
     (10 # 1) ^ (match ex with None => 0 | Some (n, _, s) => if n then - Z.of_N (value s) else Z.of_N (value s) end - Z.of_nat (length b)))%Q ->
  decimal (sgn neg plus ++ a ++ (if point then ["."%char] else []) ++ b ++ match ex with None => [] | Some (n, p, s) => "E"%char :: sgn n p ++ s end) q.
Proof.
  intros Ne Da Db P Hx Q. exists (sgn neg plus), neg, a, b, (if point then ["."%char] else []), (value (a ++ b)),
    (match ex with None => [] | Some (n, p, s) => "E"%char :: sgn n p ++ s end), (match ex with None => 0%Z | Some (n, _, s) => if n then (- Z.of_N (value s))%Z else Z.of_N (value s) end).
  split; [apply signed_sgn|]. split; [apply digits_of; [exact Ne|rewrite forallb_app, Da; exact Db]|]. split; [destruct point; [left; reflexivity|right; destruct P; [discriminate|auto]]|].
  split; [|split; [exact Da|split; [reflexivity|exact Q]]].
  destruct ex as [[[n p] s]|]; [|constructor]. constructor; [right; reflexivity|apply signed_sgn|]. apply digits_of; apply Hx.
Qed.
Definition plain (w : text) (n : Z) : Prop := (negb (Nat.eqb (length w) 0) && forallb is_digit w && (Z.of_N (value w) =? n)%Z)%bool = true.
Lemma coord_plain w n : plain w n -> coordinate_word exactQ w (Qred (inject_Z n)).
Proof.
  intros H. apply andb_true_iff in H as [H H3]. apply andb_true_iff in H as [H1 H2]. apply Z.eqb_eq in H3. exists (inject_Z n). split; [|reflexivity].
  pose proof (decimal_parts false false w [] false None (inject_Z n)) as D. cbn [sgn app] in D. rewrite !app_nil_r in D. apply D; try reflexivity; try exact I.
  - destruct w; [discriminate|easy].
  - exact H2.
  - right; reflexivity.
  - rewrite <- H3. cbn [length]. change ((10 # 1) ^ (0 - Z.of_nat 0))%Q with 1%Q. ring.
Qed.
(** Words with the white space before them. *)
Definition spelled (l : list (text * text)) (r : text) : text := flat_map (fun p => fst p ++ snd p) l ++ r.
Definition spelling (l : list (text * text)) (r : text) : bool :=
  forallb (fun p => negb (Nat.eqb (length (fst p)) 0) && forallb is_space (fst p) && negb (Nat.eqb (length (snd p)) 0) && forallb (fun c => negb (is_space c)) (snd p)) l
  && match r with [] => true | c :: _ => is_space c end.
Lemma words_spelled l r : spelling l r = true -> words (map snd l) (spelled l r) r.
Proof.
  unfold spelling, spelled. intros H. apply andb_true_iff in H as [H Hr]. induction l as [|[sp w] l IH]; [constructor|].
  cbn [forallb fst snd] in H. apply andb_true_iff in H as [H Hl]. apply andb_true_iff in H as [H H4]. apply andb_true_iff in H as [H H3]. apply andb_true_iff in H as [H1 H2].
  cbn [map snd flat_map fst]. rewrite <- !app_assoc. constructor; [exact H2|destruct w; [discriminate|easy]|exact H4| |exact (IH Hl)].
  destruct l as [|[sp' w'] l]; [cbn [flat_map app]; destruct r; [trivial|exact Hr]|]. cbn [forallb fst snd] in Hl. apply andb_true_iff in Hl as [Hl _]. apply andb_true_iff in Hl as [Hl _]. apply andb_true_iff in Hl as [Hl _].
  apply andb_true_iff in Hl as [Q1 Q2]. cbn [flat_map fst snd]. destruct sp' as [|c sp']; [discriminate|]. cbn [app]. cbn [forallb] in Q2. apply andb_true_iff in Q2. apply Q2.
Qed.
(** A tetrahedron in an FPMA file with tabs, blank lines, Windows line ends and numbers in several notations; a remark follows the last number. *)
Definition tetra : fpma_file Q :=
  mkFile [((0, 0, 0)); ((1, 0, 0)); ((0, 1 # 4, 0)); ((0, 0, -5 # 1))]%Q [[0; 1; 2]; [0; 3; 1]; [0; 2; 3]; [1; 2; 3]]%N [[0; 1; 2; 3]]%N.
Definition b1 : text := [" "%char].
Definition eol : text := [cr; nl].
Definition tetraWords : list (text * text) :=
  [(b1, str "+4"); (eol ++ [tab], str "0"); (b1, str "0"); (b1 ++ b1, str "000"); (eol, str "1."); (b1, str "0"); ([tab], str "0"); (eol, str "0"); (b1, str "+00.25E-0"); (b1, str "0");
   (eol ++ eol, str "0"); (b1, str "0"); (b1, str "-.5E+1");
   (eol, str "4"); (eol, str "3"); (b1, str "0"); (b1, str "1"); (b1, str "2"); (eol, str "3"); (b1, str "0"); (b1, str "3"); (b1, str "1");
   (eol, str "3"); (b1, str "0"); (b1, str "2"); (b1, str "3"); ([nl], str "3"); ([nl], str "1"); ([nl], str "02"); ([nl], str "3");
   (eol, str "1"); (eol, str "4"); ([tab], str "0"); ([tab], str "1"); ([tab], str "2"); ([tab], str "3")].
Definition tetraText : text := spelled tetraWords (eol ++ str "# end").
Ltac part := first [apply (coord_plain _ 0); reflexivity | apply index_plain; reflexivity].
Example C85_instance :
  file_ok tetra /\ words (map snd tetraWords) tetraText (eol ++ str "# end") /\ Forall2 (shows exactQ) (map snd tetraWords) (layout tetra) /\
  exists m, readFPMA exactQ 0 tetraText (emptyMesh 3) = Ok m /\ m_verts m = ff_verts tetra /\ length (mesh_edges m) = 6 /\ ring m 0 [0; 1; 2; 3]%N.
Proof.
  assert (FO : file_ok tetra).
  { constructor; cbn [tetra ff_polys ff_cells length].
    - unfold INVALID. lia.
    - unfold INVALID. lia.
    - intros fs [<-|[]]; (split; [discriminate|]); (split; [apply nodupb_sound; reflexivity|]);
        intros f Hf; simpl in Hf; repeat (destruct Hf as [<-|Hf]; [reflexivity|]); destruct Hf.
    - intros f. unfold listing. cbn [length seqN seq map filter]. destruct (existsb _ _); simpl; lia. }
  assert (W : words (map snd tetraWords) tetraText (eol ++ str "# end")) by (apply words_spelled; reflexivity).
  assert (SH : Forall2 (shows exactQ) (map snd tetraWords) (layout tetra)).
  { unfold tetraWords, layout, tetra. cbn [ff_verts ff_polys ff_cells map flat_map app snd fst length N.of_nat].
    repeat (constructor; [cbn [shows]; first [part | idtac]|]); [..|constructor].
    - exists ["+"%char], false, (str "4"), 4%N. split; [constructor|]. split; [apply (digits_of (str "4")); [discriminate|reflexivity]|]. split; [reflexivity|]. split; reflexivity.
    - exists 1%Q. split; [|reflexivity]. apply (decimal_parts false false (str "1") [] true None); try reflexivity; try discriminate; try exact I. left; reflexivity.
    - exists (1 # 4)%Q. split; [|reflexivity]. apply (decimal_parts false true (str "00") (str "25") true (Some (true, false, str "0"))); try reflexivity; try discriminate; [left; reflexivity|].
      split; [discriminate|reflexivity].
    - exists (-5 # 1)%Q. split; [|reflexivity]. apply (decimal_parts true false [] (str "5") true (Some (false, true, str "1"))); try reflexivity; try discriminate; [left; reflexivity|].
      split; [discriminate|reflexivity]. }
  split; [exact FO|]. split; [exact W|]. split; [exact SH|].
  destruct (readFPMA exactQ 0 tetraText (emptyMesh 3)) as [m| | |] eqn:E; [|vm_compute in E; discriminate..]. exists m. vm_compute in E. injection E as <-.
  split; [reflexivity|]. split; [vm_compute; reflexivity|]. split; [reflexivity|]. apply ring_iff. vm_compute. reflexivity.
Qed.
(** Two triangles in a VTK file with Windows line ends and empty lines. *)
Definition square : vtk_file Q := mkVtk [((0, 0, 0)); ((1, 0, 0)); ((1, 1, 0)); ((0, 1, 0))]%Q [[0; 1; 2]; [0; 2; 3]]%N [5; 5]%N.
Definition squareW1 : list (text * text) := [(eol, str "ASCII"); (eol ++ eol, str "DATASET"); (b1 ++ [tab], str "UNSTRUCTURED_GRID"); (eol, str "POINTS"); (b1, str "4")].
Definition squareW2 : list (text * text) :=
  [(b1, str "0"); (b1, str "0"); (b1, str "0"); ([tab], str "1"); (b1, str "0"); (b1, str "0"); (eol, str "1"); (b1, str "1"); (b1, str "0"); (b1, str "0"); (eol, str "1"); (b1, str "0")].
Definition squareW3 : list (text * text) := [(eol, str "3"); (b1, str "0"); (b1, str "1"); (b1, str "2"); (b1, str "3"); (b1, str "0"); (b1, str "2"); (b1, str "3")].
Definition squareW4 : list (text * text) := [(b1, str "5"); (b1, str "5")].
Definition squareText : text :=
  (str "# vtk DataFile Version 2.0" ++ [cr]) ++ nl :: (str "two triangles" ++ [cr]) ++ nl ::
  spelled squareW1 ((str " double" ++ [cr]) ++ nl :: spelled (squareW2 ++ [(eol ++ eol, str "CELLS"); (b1, str "2")]) ((str " 8" ++ [cr]) ++ nl ::
  spelled (squareW3 ++ [(eol, str "CELL_TYPES"); (b1, str "02")] ++ squareW4) (eol ++ str "CELL_DATA 2"))).
Lemma nin_check t : forallb (fun c => negb (Ascii.eqb nl c)) t = true -> ~ In nl t.
Proof. rewrite forallb_forall. intros H I. specialize (H _ I). rewrite Ascii.eqb_refl in H. discriminate. Qed.
Example C86_instance :
  vtk_text exactQ square squareText /\ grid2_ok square /\
  exists m, readVTK2 exactQ squareText (emptyMesh 2) [] = Ok (m, [TRIANGLE; TRIANGLE]) /\ m_verts m = [(0, 0); (1, 0); (1, 1); (0, 1)]%Q /\
    length (m_faces m) = 5 /\ ring m 1 [2; 3; 4]%N.
Proof.
  split; [|split].
  - exists (str "# vtk DataFile Version 2.0" ++ [cr]), (str "two triangles" ++ [cr]), (str "4"), (map snd squareW2), (str "2"), (map snd squareW3), (str "02"), (map snd squareW4),
      (str " double" ++ [cr]), (str " 8" ++ [cr]), (eol ++ str "CELL_DATA 2"). do 3 eexists.
    split; [reflexivity|]. split; [apply nin_check; reflexivity|]. split; [apply nin_check; reflexivity|]. split; [apply Nat.ltb_lt; reflexivity|]. split; [apply Nat.ltb_lt; reflexivity|].
    split; [apply (words_spelled squareW1); reflexivity|]. split; [apply index_plain; reflexivity|].
    split; [split; [apply nin_check; reflexivity|split; [apply Nat.ltb_lt; reflexivity|reflexivity]]|].
    split; [apply (words_spelled (squareW2 ++ [(eol ++ eol, str "CELLS"); (b1, str "2")])); reflexivity|].
    split; [repeat (constructor; [first [apply (coord_plain _ 0); reflexivity|apply (coord_plain _ 1); reflexivity]|]); constructor|].
    split; [apply index_plain; reflexivity|].
    split; [split; [apply nin_check; reflexivity|split; [apply Nat.ltb_lt; reflexivity|reflexivity]]|].
    split; [apply (words_spelled (squareW3 ++ [(eol, str "CELL_TYPES"); (b1, str "02")] ++ squareW4)); reflexivity|].
    split; [repeat (constructor; [apply index_plain; reflexivity|]); constructor|].
    split; [apply index_plain; reflexivity|]. repeat (constructor; [apply code_plain; reflexivity|]); constructor.
  - constructor; cbn [square vf_cells vf_types length concat app].
    + intros vs [<-|[<-|[]]]; (split; [apply nodupb_sound; reflexivity|simpl; lia]).
    + intros a b l ND H. assert (I : incl l [0; 1]%N).
      { intros c Hc. destruct (H c Hc) as (vs & E & _). assert (L : N.to_nat c < 2) by (apply (nth_error_Some [[0; 1; 2]; [0; 2; 3]]%N); rewrite E; discriminate).
        assert (c = 0 \/ c = 1)%N as [-> | ->] by lia; simpl; auto. }
      apply (NoDup_incl_length ND) in I. exact I.
    + unfold INVALID. lia.
    + unfold INVALID. lia.
    + lia.
  - destruct (readVTK2 exactQ squareText (emptyMesh 2) []) as [[m ty]| | |] eqn:E; [|vm_compute in E; discriminate..]. exists m. vm_compute in E. injection E as <- <-.
    split; [reflexivity|]. split; [reflexivity|]. split; [reflexivity|]. apply ring_iff. vm_compute. reflexivity.
Qed.
(** The limit is real. A remark of more than 20 characters after the number of points leaves the reader inside that line: the coordinates fail to be read, nothing is
    reported, and the mesh has the announced number of vertices, all at the origin, and none of the two cells. *)
Example C86_finding_long_line :
  let s := str "# vtk DataFile Version 2.0" ++ nl :: str "t" ++ nl :: str "ASCII" ++ nl :: str "DATASET UNSTRUCTURED_GRID" ++ nl :: str "POINTS 4 double # four points" ++ nl ::
           str "0 0 0 1 0 0 1 1 0 0 1 0" ++ nl :: str "CELLS 2 8" ++ nl :: str "3 0 1 2 3 0 2 3" ++ nl :: str "CELL_TYPES 2" ++ nl :: str "5 5" ++ [nl] in
  length (str " double # four points") = 21 /\ readVTK2 exactQ s (emptyMesh 2) [] = Ok (mkMesh 2 [(0, 0); (0, 0); (0, 0); (0, 0)]%Q [] [] [] [], []).
Proof. split; [reflexivity|]. vm_compute. reflexivity. Qed.

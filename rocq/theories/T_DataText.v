(** C91: cell data in VTK files, on characters. *)
From Coq Require Import String Ascii QArith.
From Verif Require Import P_Base M_Conn M_Mesh S_Mesh M_Text M_Print M_Stream P_Stream M_FPMA M_VTK M_VTKWrite S_Conn S_FPMA S_VTK M_FileText S_FileText P_FileText P_FPMAText P_VTKText
  S_Tess P_Tess T_VTKWrite M_VTKData S_VTKData P_VTKData T_VTKData M_DataText S_DataText T_FileText T_VTKText P_DataText P_DataText2 Ex_Mesh.
Local Open Scope list_scope.
Local Open Scope nat_scope.

Section RT.
Context {C : Type}.
Variable K : fp C.
Lemma kindsT_ex n (cols : list (text * coldata (num C))) :
  (forall c, In c cols -> good_name (fst c) /\ exists kd, of_kind n (snd c) kd) -> exists kds, Forall2 (fun c kd => of_kind n (snd c) kd) cols kds.
Proof.
  induction cols as [|c cols IH]; intros H; [exists []; constructor|].
  destruct IH as (kds & F); [intros x Hx; apply H; right; exact Hx|]. destruct (H c (or_introl eq_refl)) as (_ & kd & Hk).
  exists (kd :: kds). constructor; assumption.
Qed.
Lemma kindT_det n dim (d : coldata (num C)) kd kd' : 1 <= n -> 1 <= dim -> of_kind n d kd -> of_kind n d kd' -> readable_kind dim kd -> kd = kd'.
Proof.
  intros Hn Hd H H' HR.
  assert (TD : forall (v : num C) t t', of_type t v -> of_type t' v -> t = t') by (intros [c|z|x] [] []; cbn; tauto).
  destruct d as [l|l], kd as [t|t k], kd' as [t'|t' k']; cbn [of_kind] in *; try contradiction; destruct H as [L F], H' as [L' F'].
  - destruct l as [|v l]; [cbn in L; lia|]. inversion F; inversion F'; subst. f_equal. eapply TD; eassumption.
  - destruct HR as [-> _]. destruct l as [|v l]; [cbn in L; lia|]. inversion F as [|? ? [E1 G1] _]; inversion F' as [|? ? [E2 G2] _]; subst.
    destruct v as [|x v]; [cbn in Hd; lia|]. inversion G1; inversion G2; subst. f_equal. eapply TD; eassumption.
Qed.
Lemma dataT_roundtrip dim n n' wc nc pre (cols : list (text * coldata (num C))) (f : coldata (num C) -> coldata (num C)) after req :
  1 <= n -> 1 <= dim -> (forall d kd, of_kind n d kd -> of_kind n' (f d) kd) ->
  (forall name kd d, of_kind n d kd -> wc name d = Ok (colT K dim name kd (f d))) ->
  whole_lines pre -> no_keyword pre ->
  (forall c, In c cols -> good_name (fst c) /\ exists kd, of_kind n (snd c) kd) -> NoDup (map fst cols) ->
  Forall (fun q => exists d, In (fst q, d) cols /\ of_kind n d (snd q) /\ readable_kind dim (snd q)) req ->
  exists text, dataText wc nc cols = Ok text /\ exists ds, readDataText K dim n' (pre ++ text ++ after) req = Ok ds /\
    Forall2 (fun q d' => exists d, In (fst q, d) cols /\ of_kind n d (snd q) /\ col_copy K (f d) d') req ds.
Proof.
  intros Hn Hd Hf HW HE HP HC ND HR. destruct (kindsT_ex n cols HC) as (kds & HK).
  rewrite (dataText_ok K wc nc dim n kds cols f HW HK). eexists. split; [reflexivity|].
  assert (EX : exists dd, Forall2 (fun q d => In (fst q, d) cols /\ of_kind n d (snd q) /\ readable_kind dim (snd q)) req dd).
  { clear - HR. induction HR as [|q req (d & H) _ (dd & IH)]; [exists []; constructor|exists (d :: dd); constructor; assumption]. }
  destruct EX as (dd & FD). exists (map (copyCol K) (map f dd)). split.
  - replace (pre ++ (str "CELL_DATA " ++ putN nc ++ [nl] ++ colsT K dim (map (fun ck => (fst (fst ck), snd ck, f (snd (fst ck)))) (combine cols kds))) ++ after)
      with ((pre ++ str "CELL_DATA " ++ putN nc ++ [nl]) ++ colsT K dim (map (fun ck => (fst (fst ck), snd ck, f (snd (fst ck)))) (combine cols kds)) ++ after)
      by (rewrite <- !app_assoc; reflexivity).
    apply readDataText_ok.
    + right. exists (pre ++ str "CELL_DATA " ++ putN nc). rewrite <- !app_assoc. reflexivity.
    + assert (NC : no_keyword (str "CELL_DATA " ++ putN nc ++ [nl])).
      { apply nokw_chars. intros X. rewrite !in_app_iff in X. pose proof (putN_digits nc) as D. rewrite forallb_forall in D.
        destruct X as [X|[X|X]]; [cbn in X; intuition discriminate|apply D in X; discriminate X|cbn in X; intuition discriminate]. }
      destruct HE as [->|(a & ->)]; [exact NC|]. rewrite <- app_assoc. apply nokw_app; [left; reflexivity|exact (nokw_l _ _ HP)|exact NC].
    + intros c Hc. apply in_map_iff in Hc as ([[name d] kd] & <- & Hc). apply in_combine_l in Hc. cbn [fst snd]. apply (HC (name, d) Hc).
    + rewrite map_map. cbn [fst].
      assert (E : map (fun x => fst (fst x)) (combine cols kds) = map fst cols).
      { clear -HK. induction HK as [|c kd cols kds _ _ IH]; [reflexivity|]. cbn [combine map fst]. rewrite IH. reflexivity. }
      rewrite E. assumption.
    + assert (G : forall name d kd, In (name, d) cols -> of_kind n d kd -> readable_kind dim kd -> In ((name, d), kd) (combine cols kds)).
      { intros name d kd Hin Hk Hr. clear - HK Hin Hk Hr Hn Hd. induction HK as [|c kd0 cols kds H0 _ IH]; [contradiction|]. destruct Hin as [->|Hin].
        - left. cbn [snd] in H0. rewrite (kindT_det n dim d kd kd0 Hn Hd Hk H0 Hr). reflexivity.
        - right. apply IH. exact Hin. }
      clear HR. induction FD as [|[name kd] d req dd (Hin & Hk & Hr) _ IH]; [constructor|]. cbn [map]. constructor; [|exact IH]. cbn [fst snd] in *.
      split; [|split; [apply Hf; exact Hk|exact Hr]]. apply in_map_iff. exists ((name, d), kd). split; [reflexivity|]. apply G; assumption.
  - clear HR. induction FD as [|q d req dd (Hin & Hk & Hr) _ IH]; [constructor|]. cbn [map]. constructor; [|exact IH]. exists d. split; [exact Hin|]. split; [exact Hk|apply copyCol_ok].
Qed.
End RT.

(** ** C91 in 2D: the columns written after [pre] (text of whole lines without the keywords) and followed by any text are read back by name: integers as
    they were, floating point numbers rounded to six digits. *)
Theorem C91_data2 : forall C (K : fp C) n nc pre cols,
  1 <= n -> (pre = [] \/ exists a, pre = a ++ [nl]) -> no_keyword pre ->
  (forall c, In c cols -> good_name (fst c) /\ exists kd, of_kind n (snd c) kd) -> NoDup (map fst cols) ->
  exists s, dataText (columnText2 K) nc cols = Ok s /\
    forall after req, Forall (fun q => exists d, In (fst q, d) cols /\ of_kind n d (snd q) /\ readable_kind 2 (snd q)) req ->
    exists ds, readDataText K 2 n (pre ++ s ++ after) req = Ok ds /\
      Forall2 (fun q d' => exists d, In (fst q, d) cols /\ of_kind n d (snd q) /\ col_copy K d d') req ds.
Proof.
  intros C K n nc pre cols Hn HE HP HC ND.
  pose proof (fun after req => dataT_roundtrip K 2 n n (columnText2 K) nc pre cols (fun d => d) after req Hn ltac:(lia) (fun d kd H => H)
    (fun name kd d H => columnText2_ok K n name kd d Hn H) HE HP HC ND) as G.
  destruct (G [] []) as (s & Es & _); [constructor|]. exists s. split; [exact Es|]. intros after req HR.
  destruct (G after req HR) as (s' & Es' & ds & R & F). rewrite Es in Es'. injection Es' as <-. exists ds. split; assumption.
Qed.
Print Assumptions C91_data2.

(** C91 in 3D: every value is written as often as its cell is represented in the file; reading into a container with one value per written cell. *)
Theorem C91_data3 : forall V C (K : fp C) ori ccenter fcenter key (m : Mesh V) types t pre cols,
  wf_mesh m -> m_dim m = 3 -> (forall f, In f (m_faces m) -> f_subs f <> []) -> m_cells m <> [] ->
  indexMesh3 ori ccenter fcenter key m types = Ok t ->
  (pre = [] \/ exists a, pre = a ++ [nl]) -> no_keyword pre ->
  (forall c, In c cols -> good_name (fst c) /\ exists kd, of_kind (length (m_cells m)) (snd c) kd) -> NoDup (map fst cols) ->
  exists blocks s, length blocks = length (m_cells m) /\ t_cells t = List.concat blocks /\
    dataText (columnText3 K (rev (t_back t))) (N.of_nat (length (t_cells t))) cols = Ok s /\
    forall after req, Forall (fun q => exists d, In (fst q, d) cols /\ of_kind (length (m_cells m)) d (snd q) /\ readable_kind 3 (snd q)) req ->
    exists ds, readDataText K 3 (length (t_cells t)) (pre ++ s ++ after) req = Ok ds /\
      Forall2 (fun q d' => exists d, In (fst q, d) cols /\ of_kind (length (m_cells m)) d (snd q) /\
                           col_copy K (expand_col (map (@length _) blocks) d) d') req ds.
Proof.
  intros V C K ori ccenter fcenter key m types t pre cols W D HF HN E HE HP HC ND.
  destruct (C30_column_order ori ccenter fcenter key m types t W D HF E) as (blocks & L & Ec & _ & HQ).
  assert (Hn : 1 <= length (m_cells m)) by (destruct (m_cells m); [congruence|simpl; lia]).
  set (lens := map (@length _) blocks) in *.
  assert (Ll : length lens = length (m_cells m)) by (unfold lens; rewrite map_length; assumption).
  assert (EL : list_sum lens = length (t_cells t)) by (rewrite Ec, concat_length'; reflexivity).
  assert (HW : forall name kd d, of_kind (length (m_cells m)) d kd -> columnText3 K (rev (t_back t)) name d = Ok (colT K 3 name kd (expand_col lens d))).
  { intros name kd d Hk. eapply columnText3_ok; [exact Hn|exact Ll|exact Hk|]. intros A vals Hv. apply HQ. assumption. }
  assert (Hf : forall (d : coldata (num C)) kd, of_kind (length (m_cells m)) d kd -> of_kind (length (t_cells t)) (expand_col lens d) kd).
  { intros d kd Hk. rewrite <- EL. eapply expand_of_kind; eassumption. }
  pose proof (fun after req => dataT_roundtrip K 3 _ (length (t_cells t)) (columnText3 K (rev (t_back t))) (N.of_nat (length (t_cells t))) pre cols
    (expand_col lens) after req Hn ltac:(lia) Hf HW HE HP HC ND) as G.
  destruct (G [] []) as (s & Es & _); [constructor|]. exists blocks, s. split; [exact L|]. split; [exact Ec|]. split; [exact Es|]. intros after req HR.
  destruct (G after req HR) as (s' & Es' & ds & R & F). rewrite Es in Es'. injection Es' as <-. exists ds. split; assumption.
Qed.
Print Assumptions C91_data3.

(** * The text of the mesh before the data *)
Lemma nokw_join a b : (exists x c, a = x ++ [c] /\ (c = nl \/ c = blank)) -> no_keyword a -> no_keyword b -> no_keyword (a ++ b).
Proof. intros (x & c & -> & Hc) A B. rewrite <- app_assoc. cbn [app]. apply nokw_app; [exact Hc|exact (nokw_l _ _ A)|exact B]. Qed.
Definition plainchar (c : ascii) : bool := negb (Ascii.eqb c "S").
Lemma plain_nokw s : forallb plainchar s = true -> no_keyword s.
Proof. intros H. apply nokw_chars. intros X. rewrite forallb_forall in H. apply H in X. discriminate X. Qed.
Lemma pc_app a b : forallb plainchar a = true -> forallb plainchar b = true -> forallb plainchar (a ++ b) = true.
Proof. intros A B. rewrite forallb_app, A, B. reflexivity. Qed.
Lemma pc_num s : forallb numchar s = true -> forallb plainchar s = true.
Proof.
  intros H. rewrite forallb_forall in *. intros c Hc. apply H in Hc. unfold plainchar. destruct (Ascii.eqb_spec c "S") as [->|_]; [discriminate Hc|reflexivity].
Qed.
Lemma pc_flat {A} (f : A -> text) l : (forall x, forallb plainchar (f x) = true) -> forallb plainchar (flat_map f l) = true.
Proof. intros H. induction l as [|x l IH]; [reflexivity|]. cbn [flat_map]. apply pc_app; auto. Qed.
Lemma pc_putN n : forallb plainchar (putN n) = true. Proof. apply pc_num, putN_numchar. Qed.
Lemma pc_putC {C} (K : fp C) c : forallb plainchar (putC K c) = true. Proof. apply pc_num, putQ_numchar. Qed.
Lemma pc_join l : forallb plainchar (join l) = true.
Proof.
  induction l as [|v l IH]; [reflexivity|]. cbn [join]. destruct l; [apply pc_putN|]. apply pc_app; [apply pc_putN|]. apply pc_app; [reflexivity|exact IH].
Qed.
Lemma pc_types conv ts s : typesText conv ts = Ok s -> forallb plainchar s = true.
Proof.
  unfold typesText. intros E. apply bind_ok in E as (cs & _ & E). injection E as <-. apply pc_flat. intros x. apply pc_app; [apply pc_putN|reflexivity].
Qed.
Lemma kw_cells n rows total k ty : forallb plainchar ty = true -> no_keyword (cellsText n rows total k ty) /\ whole_lines (cellsText n rows total k ty).
Proof.
  intros H. unfold cellsText. split.
  2:{ right. exists (str "CELLS " ++ putN n ++ [blank] ++ putN total ++ [nl] ++ flat_map putRow rows ++ [nl] ++ str "CELL_TYPES " ++ putN k ++ [nl] ++ ty).
      rewrite <- !app_assoc. reflexivity. }
  apply nokw_join; [exists (str "CELLS"), blank; auto|split; intros X; apply contains_spec in X; discriminate X|].
  replace (putN n ++ [blank] ++ putN total ++ [nl] ++ flat_map putRow rows ++ [nl] ++ str "CELL_TYPES " ++ putN k ++ [nl] ++ ty ++ [nl])
    with ((putN n ++ [blank] ++ putN total ++ [nl] ++ flat_map putRow rows ++ [nl]) ++ str "CELL_TYPES " ++ putN k ++ [nl] ++ ty ++ [nl]) by (rewrite <- !app_assoc; reflexivity).
  apply nokw_join; [exists (putN n ++ [blank] ++ putN total ++ [nl] ++ flat_map putRow rows), nl; split; [rewrite <- !app_assoc; reflexivity|auto]| |].
  { apply plain_nokw. repeat (apply pc_app || apply pc_putN || reflexivity). apply pc_flat. intros l. unfold putRow, count.
    repeat (apply pc_app || apply pc_putN || apply pc_join || reflexivity). }
  apply nokw_join; [exists (str "CELL_TYPES"), blank; auto|split; intros X; apply contains_spec in X; discriminate X|].
  apply plain_nokw. repeat (apply pc_app || apply pc_putN || reflexivity). exact H.
Qed.
Lemma kw_header name r : no_keyword name -> no_keyword r -> no_keyword (headerText name ++ r).
Proof.
  intros N R. unfold headerText. rewrite <- !app_assoc.
  change ([nl] ++ name ++ [nl] ++ str "ASCII" ++ [nl] ++ str "DATASET UNSTRUCTURED_GRID" ++ [nl] ++ r)
    with (nl :: (name ++ nl :: (str "ASCII" ++ nl :: str "DATASET UNSTRUCTURED_GRID" ++ nl :: r))).
  assert (G : forall s, contains (str "SCALARS") s = false -> contains (str "VECTORS") s = false -> no_keyword s).
  { intros s A B. split; apply contains_false; assumption. }
  apply nokw_app; [auto|apply G; reflexivity|]. apply nokw_app; [auto|exact N|]. apply nokw_app; [auto|apply G; reflexivity|].
  apply nokw_app; [auto|apply G; reflexivity|exact R].
Qed.
Lemma whole_app a b : whole_lines b -> b <> [] -> whole_lines (a ++ b).
Proof. intros [->|(x & ->)] H; [congruence|]. right. exists (a ++ x). rewrite app_assoc. reflexivity. Qed.
Lemma cells_nonempty n rows total k ty : cellsText n rows total k ty <> [].
Proof. discriminate. Qed.
Lemma kw_points n pts r : forallb plainchar pts = true -> no_keyword r -> no_keyword (str "POINTS " ++ putN n ++ str " double" ++ [nl] ++ pts ++ [nl] ++ r).
Proof.
  intros P R. apply nokw_join; [exists (str "POINTS"), blank; auto|split; intros X; apply contains_spec in X; discriminate X|].
  replace (putN n ++ str " double" ++ [nl] ++ pts ++ [nl] ++ r) with ((putN n ++ str " double" ++ [nl] ++ pts) ++ nl :: r) by (rewrite <- !app_assoc; reflexivity).
  apply nokw_app; [auto| |exact R]. apply plain_nokw. repeat (apply pc_app || apply pc_putN || reflexivity). exact P.
Qed.

(** C91: what the mesh writer puts before the data satisfies the hypotheses about [pre] of C91_data2 and C91_data3, whatever the mesh; only the name of the mesh has to
    be free of the keywords. *)
Theorem C91_after_mesh : forall C (K : fp C) name, no_keyword name ->
  (forall m types s, writeVTK2text K m types = Ok s -> no_keyword (headerText name ++ s) /\ exists a, headerText name ++ s = a ++ [nl]) /\
  (forall ori ccenter fcenter m types s, writeVTK3text K ori ccenter fcenter m types = Ok s -> no_keyword (headerText name ++ s) /\ exists a, headerText name ++ s = a ++ [nl]).
Proof.
  intros C K name N.
  assert (W : forall a x : text, (exists b, x = b ++ [nl]) -> exists b, a ++ x = b ++ [nl]).
  { intros a x (y & ->). exists (a ++ y). rewrite app_assoc. reflexivity. }
  assert (W1 : forall (a : ascii) x, (exists b, x = b ++ [nl]) -> exists b, a :: x = b ++ [nl]).
  { intros a x (y & ->). exists (a :: y). reflexivity. }
  split.
  - intros m types s E. unfold writeVTK2text, emitVTK2text in E. apply bind_ok in E as (idx & _ & E). apply bind_ok in E as (ty & Et & E). injection E as <-.
    apply pc_types in Et. destruct (kw_cells (N.of_nat (length (m_cells m))) (fst idx) (snd idx) (N.of_nat (length (m_cells m))) ty Et) as [K1 K2]. split.
    + apply kw_header; [exact N|]. apply kw_points; [|exact K1]. apply pc_flat. intros p. unfold putPoint2. repeat (apply pc_app || apply pc_putC || reflexivity).
    + destruct K2 as [K2|K2]; [discriminate K2|]. repeat (exact K2 || apply W || apply W1).
  - intros ori ccenter fcenter m types s E. unfold writeVTK3text, emitVTK3text in E. apply bind_ok in E as (t & _ & E). apply bind_ok in E as (ty & Et & E). injection E as <-.
    apply pc_types in Et. destruct (kw_cells (N.of_nat (length (t_cells t))) (map fst (t_cells t)) (countWritten (map fst (t_cells t))) (N.of_nat (length (t_cells t))) ty Et) as [K1 K2]. split.
    + apply kw_header; [exact N|]. rewrite (app_assoc (flat_map (putPoint3 K) (m_verts m))). apply kw_points; [|exact K1].
      apply pc_app; apply pc_flat; intros p; unfold putPoint3; repeat (apply pc_app || apply pc_putC || reflexivity).
    + destruct K2 as [K2|K2]; [discriminate K2|]. repeat (exact K2 || apply W || apply W1).
Qed.
Print Assumptions C91_after_mesh.

(** C91: a whole file with a mesh and its cell data: the mesh is read as in C81 and every column by name. *)
Theorem C91_file2 : forall C (K : fp C) (m : Mesh (C * C)) types codes name cols,
  (val K (near K 0) == 0)%Q ->
  (forall c, (c < N.of_nat (length (m_cells m)))%N -> exists es vs, ring m c es /\ bounds (edges2 m) es vs) ->
  (forall e e' a b, joins (edges2 m) e a b -> joins (edges2 m) e' a b -> e = e') ->
  (forall f v, In f (m_faces m) -> In v (f_subs f) -> (v < N.of_nat (length (m_verts m)))%N) ->
  (N.of_nat (length (m_verts m)) <= INVALID)%N -> (N.of_nat (length (m_cells m)) <= INVALID)%N -> (N.of_nat (2 * length (m_faces m)) <= INVALID)%N ->
  Forall2 (fun t n => vtkCode2 t = Some n) types codes -> length types = length (m_cells m) -> m_dim m = 2 -> m_cells m <> [] ->
  ~ In nl name -> length name < 1024 -> no_keyword name ->
  (forall c, In c cols -> good_name (fst c) /\ exists kd, of_kind (length (m_cells m)) (snd c) kd) -> NoDup (map fst cols) ->
  exists mesh data m', writeVTK2text K m types = Ok mesh /\ dataText (columnText2 K) (N.of_nat (length (m_cells m))) cols = Ok data /\
    readVTK2 K (headerText name ++ mesh ++ data) (emptyMesh 2) [] = Ok (m', types) /\
    Forall2 (copy2 K) (m_verts m) (m_verts m') /\ length (m_cells m') = length (m_cells m) /\
    (forall c es, ring m c es -> exists es', ring m' c es' /\ (forall vs, bounds (edges2 m) es vs <-> bounds (edges2 m') es' vs)) /\
    forall req, Forall (fun q => exists d, In (fst q, d) cols /\ of_kind (length (m_cells m)) d (snd q) /\ readable_kind 2 (snd q)) req ->
    exists ds, readDataText K 2 (length (m_cells m')) (headerText name ++ mesh ++ data) req = Ok ds /\
      Forall2 (fun q d' => exists d, In (fst q, d) cols /\ of_kind (length (m_cells m)) d (snd q) /\ col_copy K d d') req ds.
Proof.
  intros C K m types codes name cols Z Cells Uniq HV SV SC SF Types LT D NE N1 N2 NK HC ND.
  destruct (C81_vtk2_characters C K m types codes name Z Cells Uniq HV SV SC SF Types LT D N1 N2) as (mesh & m' & Em & R & _ & _ & Pv & Lc & _ & Rg).
  destruct (proj1 (C91_after_mesh C K name NK) m types mesh Em) as [NK' W].
  assert (Hn : 1 <= length (m_cells m)) by (destruct (m_cells m); [congruence|simpl; lia]).
  destruct (C91_data2 C K (length (m_cells m)) (N.of_nat (length (m_cells m))) (headerText name ++ mesh) cols Hn (or_intror W) NK' HC ND) as (data & Ed & RD).
  exists mesh, data, m'. split; [exact Em|]. split; [exact Ed|]. split; [apply R|]. split; [exact Pv|]. split; [exact Lc|]. split; [exact Rg|].
  intros req HR. destruct (RD [] req HR) as (ds & E & F). exists ds. split; [|exact F]. rewrite app_nil_r, <- app_assoc in E. rewrite Lc. exact E.
Qed.
Print Assumptions C91_file2.

(** * Findings *)
(** C91: a vector column of integers is written for a 2D mesh with the padding "0.0 ", which an integer variable reads only in part: the first cell is right, for all other
    cells the first component is 0 and the second one is that of the first cell; nothing is reported. *)
Theorem C91_finding_integers2 : forall C (K : fp C) nc pre name t x0 y0 rest,
  (pre = [] \/ exists a, pre = a ++ [nl]) -> no_keyword pre -> good_name name -> t <> TFl ->
  of_type t x0 -> of_type t y0 -> Forall (fun v => length v = 2 /\ Forall (of_type t) v) rest ->
  exists s, dataText (columnText2 K) nc [(name, Ve ([x0; y0] :: rest))] = Ok s /\
    readDataText K 2 (S (length rest)) (pre ++ s) [(name, MV t 2)] =
      Ok [Ve ([x0; y0] :: repeat [match t with TIn => In32 0 | _ => Un64 0 end; y0] (length rest))].
Proof.
  intros C K nc pre name t x0 y0 rest HE HP HN Ht Hx Hy HR.
  set (d := Ve ([x0; y0] :: rest)).
  assert (HK : of_kind (S (length rest)) d (MV t 2)).
  { split; [reflexivity|]. constructor; [|exact HR]. split; [reflexivity|repeat constructor; assumption]. }
  set (cols := [(name, d)]).
  assert (F2 : Forall2 (fun c kd => of_kind (S (length rest)) (snd c) kd) cols [MV t 2]) by (repeat constructor; assumption || apply HK).
  rewrite (dataText_ok K (columnText2 K) nc 2 (S (length rest)) [MV t 2] cols (fun d => d)); [| |exact F2].
  2:{ intros nm kd d' Hk. apply (columnText2_ok K (S (length rest))); [lia|exact Hk]. }
  cbn [combine map cols fst snd]. eexists. split; [reflexivity|].
  unfold readDataText. fold (idxT (pre ++ (str "CELL_DATA " ++ putN nc ++ [nl] ++ colsT K 2 [(name, MV t 2, d)]))).
  set (file := pre ++ (str "CELL_DATA " ++ putN nc ++ [nl] ++ colsT K 2 [(name, MV t 2, d)])).
  assert (EI : find name (idxT file) = Some (Some (bodyT K 2 d ++ [nl]))).
  { unfold file. replace (pre ++ str "CELL_DATA " ++ putN nc ++ [nl] ++ colsT K 2 [(name, MV t 2, d)])
      with ((pre ++ str "CELL_DATA " ++ putN nc ++ [nl]) ++ colT K 2 name (MV t 2) d ++ []).
    2:{ unfold colsT. cbn [flat_map fst snd]. rewrite <- !app_assoc. reflexivity. }
    rewrite (idxT_plain (length (pre ++ str "CELL_DATA " ++ putN nc ++ [nl]))); [|lia| |].
    - rewrite idx_colT by exact HN. cbn [indexed Nat.eqb app find]. rewrite (proj2 (text_eqb_spec name name) eq_refl). reflexivity.
    - right. exists (pre ++ str "CELL_DATA " ++ putN nc). rewrite <- !app_assoc. reflexivity.
    - assert (NC : no_keyword (str "CELL_DATA " ++ putN nc ++ [nl])).
      { apply plain_nokw. repeat (apply pc_app || apply pc_putN || reflexivity). }
      destruct HE as [->|(a & ->)]; [exact NC|]. rewrite <- app_assoc. apply nokw_app; [left; reflexivity|exact (nokw_l _ _ HP)|exact NC]. }
  cbn [readColumnsT]. unfold readColumnT, seek. cbn [failed]. rewrite EI. cbn [Nat.eqb repeat readVectorsT].
  unfold bodyT, d. cbn [flat_map]. unfold vecText at 1. cbn [Nat.eqb]. rewrite <- !app_assoc.
  destruct (readCompsT_ok K t [x0; y0] ltac:(repeat constructor; assumption) [None; None] [] (str "0.0 " ++ flat_map (vecText K 2) rest ++ [nl]) eq_refl eq_refl) as (w & Hw & E).
  cbn [app] in E. cbn [app]. rewrite E. clear E. cbn [map].
  assert (CP : forall v, of_type t v -> copyV K v = v) by (intros [c|z|x]; destruct t; cbn; congruence || tauto).
  rewrite (CP x0 Hx), (CP y0 Hy).
  set (z := match t with TIn => In32 0 | _ => Un64 0 end : num C).
  set (tail := flat_map (vecText K 2) rest ++ [nl]).
  assert (S0 : forall u, sentry (mkI (w ++ "0"%char :: u) false) = Some ("0"%char :: u)).
  { intros u. apply (sentry_app w ("0"%char :: u) Hw); [discriminate|reflexivity]. }
  assert (R0 : forall prev u, readV K t prev (mkI (w ++ str "0.0 " ++ u) false) = (Some z, mkI (str ".0 " ++ u) false)).
  { intros prev u. unfold readV, getInt, getN. change (str "0.0 " ++ u) with ("0"%char :: "."%char :: "0"%char :: " "%char :: u).
    destruct t; [congruence| |]; rewrite S0; cbn; reflexivity. }
  assert (R1 : forall prev u, readV K t prev (mkI (str ".0 " ++ u) false) = (Some z, mkI (str ".0 " ++ u) true)).
  { intros prev u. unfold readV, getInt, getN. destruct t; [congruence| |]; cbn; reflexivity. }
  assert (R2 : forall prev u, readV K t prev (mkI u true) = (prev, mkI u true)).
  { intros prev u. unfold readV, getInt, getN. destruct t; [congruence| |]; reflexivity. }
  assert (R3 : forall n a b y u, exists i, readVectorsT K true t n [Some a; Some b] y (mkI u true) = Ok (repeat [a; b] n, i)).
  { induction n as [|n IH]; intros a b y u; [eexists; reflexivity|]. cbn [readVectorsT readCompsT]. rewrite !R2. cbn [mapM use bind].
    destruct (IH a b y u) as (i & ->). eexists. reflexivity. }
  rewrite R0. cbn [mapM use bind].
  assert (R4 : exists i, readVectorsT K true t (length rest) [Some x0; Some y0] (Some z) (mkI (str ".0 " ++ tail) false) = Ok (repeat [z; y0] (length rest), i)).
  { destruct (length rest) as [|n]; [eexists; reflexivity|]. cbn [readVectorsT readCompsT]. rewrite R1. rewrite !R2. cbn [mapM use bind].
    destruct (R3 n z y0 (Some z) (str ".0 " ++ tail)) as (i & ->). eexists. reflexivity. }
  destruct R4 as (i & ->). reflexivity.
Qed.
Print Assumptions C91_finding_integers2.

(** C91: a member whose name contains a blank is indexed under its first word only: reading starts at the beginning of the file, and the values are zeros (for a file that starts
    with "#", as every VTK file does). *)
Theorem C91_finding_blank : forall C (K : fp C) n nc pre a b vals,
  1 <= n -> length vals = n -> Forall (of_type TFl) vals ->
  (exists u, pre = "#"%char :: u ++ [nl]) -> no_keyword pre -> good_name a -> no_keyword b -> ~ In nl b ->
  exists s, dataText (columnText2 K) nc [(a ++ blank :: b, Sc vals)] = Ok s /\
    readDataText K 2 n (pre ++ s) [(a ++ blank :: b, MS TFl)] = Ok [Sc (repeat (Fl (near K 0)) n)].
Proof.
  intros C K n nc pre a b vals Hn HL HV (u & Hpre) HP (Na & Wa & Ka) Kb NB.
  eexists. split; [reflexivity|]. cbn [List.concat]. set (tail := putVs K vals ++ [nl]).
  set (file := pre ++ _). unfold readDataText. fold (idxT file).
  assert (EI : find (a ++ blank :: b) (idxT file) = None).
  { unfold file. unfold scalarHead. cbn [fst].
    replace (pre ++ str "CELL_DATA " ++ putN nc ++ [nl] ++ ((str "SCALARS " ++ (a ++ blank :: b) ++ str " double 1" ++ [nl] ++ str "LOOKUP_TABLE default" ++ [nl]) ++ tail) ++ [])
      with ((pre ++ str "CELL_DATA " ++ putN nc ++ [nl]) ++ (str "SCALARS" ++ blank :: a ++ blank :: b ++ str " double 1") ++ nl :: str "LOOKUP_TABLE default" ++ nl :: tail).
    2:{ change (str "SCALARS ") with (str "SCALARS" ++ [blank]). rewrite app_nil_r. repeat (rewrite <- !app_assoc; cbn [app]). reflexivity. }
    assert (NC : no_keyword (str "CELL_DATA " ++ putN nc ++ [nl])) by (apply plain_nokw; repeat (apply pc_app || apply pc_putN || reflexivity)).
    rewrite (idxT_plain (length (pre ++ str "CELL_DATA " ++ putN nc ++ [nl]))); [|apply le_n| |].
    2:{ right. exists (pre ++ str "CELL_DATA " ++ putN nc). rewrite <- !app_assoc. reflexivity. }
    2:{ rewrite Hpre in *. change ("#"%char :: u ++ [nl]) with (("#"%char :: u) ++ [nl]) in *. rewrite <- app_assoc. apply nokw_app; [auto|exact (nokw_l _ _ HP)|exact NC]. }
    rewrite idxT_line.
    2:{ pose proof (name_no_nl a Wa) as NN. apply no_nl_app; [intros X; cbn in X; intuition discriminate|]. intros [X|X]; [discriminate|].
        revert X. apply no_nl_app; [exact NN|]. intros [X|X]; [discriminate|]. revert X. apply no_nl_app; [exact NB|]. intros X; cbn in X; intuition discriminate. }
    assert (E : contains (str "SCALARS") (str "SCALARS" ++ blank :: a ++ blank :: b ++ str " double 1") = true).
    { apply contains_spec. exists [], (blank :: a ++ blank :: b ++ str " double 1"). reflexivity. }
    rewrite E. rewrite (skipTo_eq nl 500 (str "LOOKUP_TABLE default")); [|intros X; cbn in X; intuition discriminate|cbn; lia].
    rewrite nameOf_word; [| | | | |]; try assumption; try reflexivity; [|intros X; cbn in X; intuition discriminate|cbn; lia].
    cbn [find]. destruct (text_eqb (a ++ blank :: b) a) eqn:EQ.
    { apply text_eqb_spec in EQ. apply (f_equal (@length _)) in EQ. rewrite app_length in EQ. cbn in EQ. lia. }
    unfold tail. rewrite idxT_plain_line; [reflexivity| |]; apply row_plain, putVs_row. }
  cbn [readColumnsT]. unfold readColumnT, seek. cbn [failed]. rewrite EI.
  assert (EF : exists v, file = "#"%char :: v) by (unfold file; rewrite Hpre; eexists; reflexivity). destruct EF as (v & EF).
  assert (R0 : forall prev, readV K TFl prev (mkI file false) = (Some (Fl (near K 0)), mkI file true)) by (intros prev; rewrite EF; reflexivity).
  assert (R1 : forall k y, readScalarsT K TFl k (Some y) (mkI file true) = Ok (repeat y k, mkI file true)).
  { induction k as [|k IH]; intros y; [reflexivity|]. cbn [readScalarsT readV getDec sentry failed use bind chars]. rewrite IH. reflexivity. }
  destruct n as [|n]; [lia|]. cbn [readScalarsT]. rewrite R0. cbn [use bind]. rewrite R1. reflexivity.
Qed.
Print Assumptions C91_finding_blank.

(** * Instances *)
Definition some_cols : list (text * coldata (num Q)) :=
  [(str "pressure", Sc [Fl (1 # 3); Fl (- (2 # 1))]%Q); (str "color", Sc [Un64 3; Un64 (2 ^ 63)]); (str "velocity", Ve [[Fl (1 # 8); Fl (0 # 1)]; [Fl (5 # 1); Fl (1 # 7)]])].
Example C91_instance :
  no_keyword (headerText (str "mesh")) /\
  (forall c, In c some_cols -> good_name (fst c) /\ exists kd, of_kind 2 (snd c) kd) /\ NoDup (map fst some_cols) /\
  (exists s, dataText (columnText2 exactQ) 2 some_cols = Ok s /\
     s = str "CELL_DATA 2" ++ [nl] ++ str "SCALARS pressure double 1" ++ [nl] ++ str "LOOKUP_TABLE default" ++ [nl] ++ str "0.333333 -2 " ++ [nl] ++
         str "SCALARS color double 1" ++ [nl] ++ str "LOOKUP_TABLE default" ++ [nl] ++ str "3 9223372036854775808 " ++ [nl] ++
         str "VECTORS velocity double" ++ [nl] ++ str "0.125 0 0.0 5 0.142857 0.0 " ++ [nl] /\
     readDataText exactQ 2 2 (headerText (str "mesh") ++ s) [(str "velocity", MV TFl 2); (str "color", MS TUn)] =
       Ok [Ve [[Fl (1 # 8); Fl (0 # 1)]; [Fl (5 # 1); Fl (142857 # 1000000)]]; Sc [Un64 3; Un64 (2 ^ 63)]]%Q).
Proof.
  assert (G : forall s, contains (str "SCALARS") s = false -> contains (str "VECTORS") s = false -> no_keyword s).
  { intros s A B. split; apply contains_false; assumption. }
  split; [apply G; reflexivity|]. split; [|split; [repeat constructor; cbn; intuition discriminate|]].
  - intros c [<-|[<-|[<-|[]]]]; (split; [split; [discriminate|split; [reflexivity|apply G; reflexivity]]|]).
    + exists (MS TFl). split; [reflexivity|repeat constructor].
    + exists (MS TUn). split; [reflexivity|repeat constructor].
    + exists (MV TFl 2). split; [reflexivity|repeat constructor].
  - eexists. split; [vm_compute; reflexivity|]. split; [reflexivity|vm_compute; reflexivity].
Qed.
Example C91_instance_integers :
  dataText (columnText2 exactQ) 2 [(str "v", Ve [[In32 1; In32 (-2)]; [In32 3; In32 4]])] =
    Ok (str "CELL_DATA 2" ++ [nl] ++ str "VECTORS v double" ++ [nl] ++ str "1 -2 0.0 3 4 0.0 " ++ [nl]) /\
  readDataText exactQ 2 2 (str "CELL_DATA 2" ++ [nl] ++ str "VECTORS v double" ++ [nl] ++ str "1 -2 0.0 3 4 0.0 " ++ [nl]) [(str "v", MV TIn 2)] =
    Ok [Ve [[In32 1; In32 (-2)]; [In32 0; In32 (-2)]]].
Proof. split; vm_compute; reflexivity. Qed.

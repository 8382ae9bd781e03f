(** C30 and C31: cell data in VTK files. *)
From Coq Require Import String.
From Verif Require Import P_Base M_Conn M_Mesh S_Mesh M_Text M_Apply M_FPMA M_VTK S_VTK M_VTKWrite S_Tess P_Tess T_VTKWrite
  M_VTKData S_VTKData P_VTKData Ex_Mesh.
Local Open Scope list_scope.

(** Every mesh cell is represented by at least one VTK cell. *)
Lemma blocks_lens {V} ccenter fcenter (key : V -> string) (m : Mesh V) types pts blocks :
  (forall f, In f (m_faces m) -> f_subs f <> []) ->
  (forall c b, nth_error blocks (N.to_nat c) = Some b -> exists ty, nth_error types (N.to_nat c) = Some ty /\
     written_for m ccenter fcenter key pts c ty b) ->
  forall i n, nth_error (map (@length _) blocks) i = Some n ->
    1 <= n /\ (negb (native3 (nth i types Tdefault)) = false -> n = 1).
Proof.
  intros HF HB i n Hi. rewrite nth_error_map in Hi. destruct (nth_error blocks i) as [b|] eqn:Eb; [|discriminate].
  injection Hi as <-. destruct (HB (N.of_nat i) b) as (ty & Hty & HW); [rewrite Nat2N.id; assumption|].
  rewrite Nat2N.id in Hty. rewrite (nth_error_nth _ _ _ Hty). unfold written_for in HW. destruct (native3 ty).
  - destruct HW as (vs & ->). cbn. split; [lia|reflexivity].
  - split; [|discriminate]. destruct HW as (fs & is & (f0 & r & -> & _) & I & F).
    inversion I as [|f fs' fc is' Hfc I' Ef Ei]; subst. apply Forall2_length' in F. rewrite <- F, app_length, map_length.
    assert (f_subs fc <> []) by (apply HF; eapply nth_error_In; eassumption).
    destruct (f_subs fc); [congruence|]. simpl. lia.
Qed.

(** ** C30: for the backward map of every indexed mesh, the values of the cells are written in the order of
    the written cells: each value as often as its cell is represented. *)
Theorem C30_column_order {V} ori ccenter fcenter key (m : Mesh V) types t :
  wf_mesh m -> m_dim m = 3 -> (forall f, In f (m_faces m) -> f_subs f <> []) ->
  indexMesh3 ori ccenter fcenter key m types = Ok t ->
  exists blocks, length blocks = length (m_cells m) /\ t_cells t = List.concat blocks /\
    (forall c b, nth_error blocks (N.to_nat c) = Some b -> exists ty, nth_error types (N.to_nat c) = Some ty /\
       written_for m ccenter fcenter key (m_verts m ++ t_verts t) c ty b) /\
    forall A (data : list A), length data = length (m_cells m) ->
      cursor data (rev (t_back t)) 0 0 = Ok (expand (map (@length _) blocks) data).
Proof.
  intros W D HF E. destruct (C29_tessellation ori ccenter fcenter key m types t W D E) as (blocks & L & Ec & HB & _ & Eb & _).
  exists blocks. splits; auto. intros A data HL. rewrite Eb.
  pose proof (cursor_spec data (fun c => negb (native3 (nth (N.to_nat c) types Tdefault))) (map (@length _) blocks) 0 0 0) as HC.
  cbn [N.to_nat N.sub firstn skipn app] in HC. apply HC; try lia.
  - rewrite map_length. lia.
  - intros i n Hi. rewrite N.add_0_l, Nat2N.id. eapply blocks_lens; eassumption.
Qed.
Print Assumptions C30_column_order.

(** Position by position: the k-th value is the value of the mesh cell the k-th written cell comes from. *)
Theorem C30_column_values {V} ori ccenter fcenter key (m : Mesh V) types t :
  wf_mesh m -> m_dim m = 3 -> (forall f, In f (m_faces m) -> f_subs f <> []) ->
  indexMesh3 ori ccenter fcenter key m types = Ok t ->
  forall A (data : list A), length data = length (m_cells m) ->
  exists blocks out, length blocks = length (m_cells m) /\ t_cells t = List.concat blocks /\
    cursor data (rev (t_back t)) 0 0 = Ok out /\ length out = length (t_cells t) /\
    forall k c, nth_error (sources 0 (map (@length _) blocks)) k = Some c -> nth_error out k = nth_error data (N.to_nat c).
Proof.
  intros W D HF E A data HL.
  destruct (C29_tessellation ori ccenter fcenter key m types t W D E) as (blocks & L & Ec & HB & Hin & Eb & _).
  exists blocks, (expand (map (@length _) blocks) data). split; [assumption|]. split; [assumption|]. split.
  { rewrite Eb.
    pose proof (cursor_spec data (fun c => negb (native3 (nth (N.to_nat c) types Tdefault))) (map (@length _) blocks) 0 0 0) as HC.
    cbn [N.to_nat N.sub firstn skipn app] in HC. apply HC; try lia.
    - rewrite map_length. lia.
    - intros i n Hi. rewrite N.add_0_l, Nat2N.id. eapply blocks_lens; eassumption. }
  split.
  - rewrite Ec, expand_length by (rewrite map_length; lia). rewrite concat_length'. reflexivity.
  - intros k c Hk.
    assert (G : forall lens c0 (vals : list A) k c, length lens = length vals -> nth_error (sources c0 lens) k = Some c ->
      nth_error (expand lens vals) k = nth_error vals (N.to_nat (c - c0)) /\ (c0 <= c)%N).
    { clear. induction lens as [|n r IH]; intros c0 [|v s] k c L H; try discriminate; [destruct k; discriminate|].
      cbn [sources expand] in *. destruct (Nat.lt_ge_cases k n) as [Hk|Hk].
      - rewrite nth_error_app1 in H by (rewrite repeat_length; assumption).
        rewrite nth_error_app1 by (rewrite repeat_length; assumption).
        assert (c = c0) by (apply nth_error_In, repeat_spec in H; assumption). subst c. rewrite N.sub_diag.
        split; [|lia]. cbn [N.to_nat nth_error]. apply nth_error_repeat. assumption.
      - rewrite nth_error_app2 in H by (rewrite repeat_length; assumption).
        rewrite nth_error_app2 by (rewrite repeat_length; assumption). rewrite repeat_length in *.
        apply (IH (c0 + 1)%N s) in H as [H1 H2]; [|simpl in L; congruence]. rewrite H1. split; [|lia].
        replace (N.to_nat (c - c0)) with (S (N.to_nat (c - (c0 + 1)))) by lia. reflexivity. }
    destruct (G (map (@length _) blocks) 0%N data k c) as [G1 _]; [rewrite map_length; lia|exact Hk|]. rewrite G1. do 2 f_equal. lia.
Qed.
Print Assumptions C30_column_values.

(** ** C31: what is written is read back, also for tessellated meshes. *)
Lemma kinds_ex {C} n (cols : list (string * coldata C)) :
  (forall c, In c cols -> plain_word (fst c) /\ exists kd, has_kind n (snd c) kd) ->
  exists kds, Forall2 (fun c kd => has_kind n (snd c) kd) cols kds.
Proof.
  induction cols as [|c cols IH]; intros H; [exists []; constructor|].
  destruct (H c (or_introl eq_refl)) as [_ (kd & Hk)]. destruct IH as (kds & F); [intros; apply H; right; assumption|].
  exists (kd :: kds). constructor; assumption.
Qed.
Lemma kind_det {C} n (d : coldata C) k1 k2 : 1 <= n -> has_kind n d k1 -> has_kind n d k2 -> k1 = k2.
Proof.
  intros Hn H1 H2. destruct d as [vals|vals], k1 as [|a], k2 as [|b]; cbn [has_kind] in *; try contradiction; [reflexivity|].
  destruct H1 as [L H1], H2 as [_ H2]. destruct vals as [|v l]; [simpl in L; lia|]. inversion H1; inversion H2; subst. reflexivity.
Qed.

Lemma data_roundtrip {C} (zero : C) dim n n' wc nc pre cols (f : coldata C -> coldata C) req ds :
  1 <= n -> (forall d kd, has_kind n d kd -> has_kind n' (f d) kd) ->
  (forall name kd d, has_kind n d kd -> wc [name] d = Ok (col_text zero dim name kd (f d))) ->
  (pre = [] \/ ends_line pre) -> plain_text pre ->
  (forall c, In c cols -> plain_word (fst c) /\ exists kd, has_kind n (snd c) kd) -> NoDup (map fst cols) ->
  Forall2 (fun q d' => exists d, In (fst q, d) cols /\ has_kind n d (snd q) /\ readable dim (snd q) /\ d' = f d) req ds ->
  exists text, writeData wc nc (map (fun c => ([fst c], snd c)) cols) = Ok text /\
    readData zero dim n' (pre ++ text) req = Ok ds.
Proof.
  intros Hn Hf HW HE HP HC ND HR. destruct (kinds_ex n cols HC) as (kds & HK).
  rewrite (writeData_ok zero wc nc dim n kds cols f HW HK). eexists. split; [reflexivity|].
  rewrite app_assoc. apply readColumns_ok.
  - right. exists (pre ++ [Vw "CELL_DATA"; Vn nc]). rewrite <- app_assoc. reflexivity.
  - intros w Hw. apply in_app_iff in Hw as [Hw|Hw]; [apply HP; assumption|].
    cbn in Hw. destruct Hw as [E|[E|[E|[]]]]; try discriminate. injection E as <-. split; reflexivity.
  - intros c Hc. apply in_map_iff in Hc as ([[name d] kd] & <- & Hc). apply in_combine_l in Hc. cbn [fst snd].
    apply (HC (name, d) Hc).
  - rewrite map_map. cbn [fst].
    assert (E : map (fun x => fst (fst x)) (combine cols kds) = map fst cols).
    { clear -HK. induction HK as [|c kd cols kds _ _ IH]; [reflexivity|]. cbn [combine map fst]. rewrite IH. reflexivity. }
    rewrite E. assumption.
  - eapply Forall2_mono; [|exact HR]. intros [name kd] d' (d & Hin & Hk & Hr & ->). cbn [fst snd] in *. splits; auto.
    apply in_map_iff.
    assert (G : exists kd', In ((name, d), kd') (combine cols kds) /\ has_kind n d kd').
    { clear -HK Hin. induction HK as [|c kd0 cols kds H0 _ IH]; [contradiction|]. destruct Hin as [->|Hin].
      - exists kd0. split; [left; reflexivity|exact H0].
      - destruct (IH Hin) as (kd' & H1 & H2). exists kd'. split; [right; assumption|assumption]. }
    destruct G as (kd' & H1 & H2). rewrite (kind_det n d kd kd' Hn Hk H2) in *. exists ((name, d), kd'). split; [reflexivity|assumption].
Qed.

(** 3D: [pre] is what precedes the data in the file. Reading into a container with one value per written
    cell gives for each requested column the values of the mesh cells, each as often as its cell is
    represented. *)
Theorem C31_data3_roundtrip {V C} ori ccenter fcenter key (m : Mesh V) types t (zero : C) pre cols :
  wf_mesh m -> m_dim m = 3 -> (forall f, In f (m_faces m) -> f_subs f <> []) -> m_cells m <> [] ->
  indexMesh3 ori ccenter fcenter key m types = Ok t ->
  (pre = [] \/ ends_line pre) -> plain_text pre ->
  (forall c, In c cols -> plain_word (fst c) /\ exists kd, has_kind (length (m_cells m)) (snd c) kd) -> NoDup (map fst cols) ->
  exists blocks text,
    length blocks = length (m_cells m) /\ t_cells t = List.concat blocks /\
    writeData (writeColumn3 (rev (t_back t))) (N.of_nat (length (t_cells t))) (map (fun c => ([fst c], snd c)) cols) = Ok text /\
    forall req ds,
      Forall2 (fun q d' => exists d, In (fst q, d) cols /\ has_kind (length (m_cells m)) d (snd q) /\ readable 3 (snd q) /\
                           d' = expand_col (map (@length _) blocks) d) req ds ->
      readData zero 3 (length (t_cells t)) (pre ++ text) req = Ok ds.
Proof.
  intros W D HF HN E HE HP HC ND.
  destruct (C30_column_order ori ccenter fcenter key m types t W D HF E) as (blocks & L & Ec & _ & HQ).
  assert (Hn : 1 <= length (m_cells m)) by (destruct (m_cells m); [congruence|simpl; lia]).
  set (lens := map (@length _) blocks) in *.
  assert (Ll : length lens = length (m_cells m)) by (unfold lens; rewrite map_length; assumption).
  assert (EL : list_sum lens = length (t_cells t)) by (rewrite Ec, concat_length'; reflexivity).
  assert (HW : forall name kd d, has_kind (length (m_cells m)) d kd ->
     writeColumn3 (rev (t_back t)) [name] d = Ok (col_text zero 3 name kd (expand_col lens d))).
  { intros name kd d Hk. eapply writeColumn3_ok; [exact Hn|exact Ll|exact Hk|]. intros A vals Hv. apply HQ. assumption. }
  assert (Hf : forall (d : coldata C) kd, has_kind (length (m_cells m)) d kd -> has_kind (length (t_cells t)) (expand_col lens d) kd).
  { intros d kd Hk. rewrite <- EL. eapply expand_kind; eassumption. }
  pose proof (fun req ds => data_roundtrip zero 3 _ (length (t_cells t)) (writeColumn3 (rev (t_back t))) (N.of_nat (length (t_cells t))) pre cols
    (expand_col lens) req ds Hn Hf HW HE HP HC ND) as G.
  destruct (G [] []) as (text & HT & _); [constructor|]. exists blocks, text. splits; auto.
  intros req ds HR. destruct (G req ds HR) as (text' & HT' & HRd). rewrite HT in HT'. injection HT' as <-. exact HRd.
Qed.
Print Assumptions C31_data3_roundtrip.

(** 2D: reading gives the columns back. *)
Theorem C31_data2_roundtrip {C} (zero : C) n nc pre cols :
  1 <= n -> (pre = [] \/ ends_line pre) -> plain_text pre ->
  (forall c, In c cols -> plain_word (fst c) /\ exists kd, has_kind n (snd c) kd) -> NoDup (map fst cols) ->
  exists text, writeData (writeColumn2 zero) nc (map (fun c => ([fst c], snd c)) cols) = Ok text /\
    forall req ds,
      Forall2 (fun q d => In (fst q, d) cols /\ has_kind n d (snd q) /\ readable 2 (snd q)) req ds ->
      readData zero 2 n (pre ++ text) req = Ok ds.
Proof.
  intros Hn HE HP HC ND.
  assert (HW : forall name kd d, has_kind n d kd -> writeColumn2 zero [name] d = Ok (col_text zero 2 name kd d)).
  { intros name kd d Hk. eapply writeColumn2_ok; eassumption. }
  pose proof (fun req ds => data_roundtrip zero 2 n n (writeColumn2 zero) nc pre cols (fun d => d) req ds Hn (fun d kd H => H) HW HE HP HC ND) as G.
  destruct (G [] []) as (text & HT & _); [constructor|]. exists text. split; [assumption|].
  intros req ds HR. destruct (G req ds) as (text' & HT' & HRd).
  - eapply Forall2_mono; [|exact HR]. intros q d (H1 & H2 & H3). exists d. auto.
  - rewrite HT in HT'. injection HT' as <-. exact HRd.
Qed.
Print Assumptions C31_data2_roundtrip.

(** The text the mesh writers produce is a suitable prefix when the title is. *)
Theorem C31_mesh_text_plain {C} (title : list (vtok C)) (F : vtk_file C) : plain_text title ->
  plain_text (writeHeader title ++ vtk_body F) /\ ends_line (writeHeader title ++ vtk_body F).
Proof.
  intros HT. split.
  - assert (PA : forall a b : list (vtok C), plain_text a -> plain_text b -> plain_text (a ++ b)).
    { intros a b Ha Hb w Hw. apply in_app_iff in Hw as [Hw|Hw]; auto. }
    assert (PF : forall A (f : A -> list (vtok C)) l, (forall x, plain_text (f x)) -> plain_text (flat_map f l)).
    { intros A f l Hf w Hw. apply in_flat_map in Hw as (x & _ & Hw). eapply Hf; eassumption. }
    assert (PC : forall l : list (vtok C), Forall (fun t => match t with Vw w => plain_word w | _ => True end) l -> plain_text l).
    { intros l Hl w Hw. rewrite Forall_forall in Hl. exact (Hl _ Hw). }
    unfold writeHeader, vtk_body, points_section, cells_section, types_section, row, vnum.
    repeat (apply PA || (apply PF; intros ?) || assumption).
    all: try (apply PC; repeat (constructor; [first [exact I|split; reflexivity]|]); constructor).
    intros w Hw. destruct Hw as [Hw|Hw]; [discriminate|]. apply in_app_iff in Hw as [Hw|Hw].
    + apply in_map_iff in Hw as (? & Hw & _). discriminate.
    + destruct Hw as [Hw|[]]. discriminate.
  - unfold vtk_body, types_section. eexists. rewrite !app_assoc. reflexivity.
Qed.
Print Assumptions C31_mesh_text_plain.

(** A name that is not in the file: the reader starts at the beginning of the file, the first extraction
    fails, all values become zero, and every later column is undefined because the stream stays failed. *)
Theorem C31_missing_column {C} (zero : C) dim n w file name cols :
  1 <= n -> dfind name (indexData (S (length file)) (Vw w :: file)) = None ->
  readData zero dim n (Vw w :: file) [(name, KS)] = Ok [Sc (repeat zero n)] /\
  forall name' kd, kd <> KV 0 ->
    readData zero dim n (Vw w :: file) ((name, KS) :: (name', kd) :: cols) = UB.
Proof.
  intros Hn HF.
  assert (R0 : forall k, readScalars zero k None (Some zero) = Ok (repeat zero k, None)).
  { induction k as [|k IH]; [reflexivity|]. cbn [readScalars extract bind fst snd use]. rewrite IH. reflexivity. }
  destruct n as [|n]; [lia|].
  assert (R : readColumn zero dim (S n) (Vw w :: file) (indexData (S (length file)) (Vw w :: file)) (Some (Vw w :: file)) name KS
    = Ok (Sc (repeat zero (S n)), None)).
  { unfold readColumn. rewrite HF. cbn [readScalars extract skip_nl bind fst snd use]. rewrite R0. reflexivity. }
  unfold readData. cbn [length]. split; [cbn [readColumns]; rewrite R; reflexivity|].
  intros name' kd HK. cbn [readColumns]. rewrite R. cbn [bind fst snd].
  assert (RU : readColumn zero dim (S n) (Vw w :: file) (indexData (S (length file)) (Vw w :: file)) None name' kd = UB).
  { unfold readColumn. destruct kd as [|[|k]]; [reflexivity|congruence|]. cbn [readVectors].
    assert (RC : forall l, readComps zero l (None : @istate C) = Ok (l, None)).
    { induction l as [|p l IH]; [reflexivity|]. cbn [readComps extract bind fst snd]. rewrite IH. reflexivity. }
    rewrite RC. cbn [bind fst snd extract repeat mapM use]. destruct (dim =? 2); reflexivity. }
  rewrite RU. reflexivity.
Qed.
Print Assumptions C31_missing_column.

(** ** Instances *)
Definition prismTess := indexMesh3 prismOri (fun c => (100 + Z.of_N c, 0, 0)%Z) (fun f => (200 + Z.of_N f, 0, 0)%Z) zkey
  twoPrisms [POLYHEDRON; WEDGE].
Definition prismCols : list (string * coldata Z) :=
  [("pressure"%string, Sc [7; 9]%Z); ("velocity"%string, Ve [[1; 2; 3]; [4; 5; 6]]%Z)].
Example C30_C31_instance :
  exists t text, prismTess = Ok t /\ m_cells twoPrisms <> [] /\ (forall f, In f (m_faces twoPrisms) -> f_subs f <> []) /\
    cursor [7; 9]%Z (rev (t_back t)) 0 0 = Ok (repeat 7 18 ++ [9])%Z /\
    (forall c, In c prismCols -> plain_word (fst c) /\ exists kd, has_kind 2 (snd c) kd) /\
    writeData (writeColumn3 (rev (t_back t))) 19 (map (fun c => ([fst c], snd c)) prismCols) = Ok text /\
    readData 0%Z 3 19 (writeHeader [Vw "grid"] ++ text) [("velocity"%string, KV 3); ("pressure"%string, KS)] =
      Ok [Ve (repeat [1; 2; 3] 18 ++ [[4; 5; 6]])%Z; Sc (repeat 7 18 ++ [9])%Z].
Proof.
  destruct prismTess as [t| | |] eqn:E; [|vm_compute in E; discriminate..].
  vm_compute in E. injection E as <-.
  eexists _, _. split; [reflexivity|]. split; [discriminate|]. split.
  { intros f Hf. assert (H : forallb (fun f => match f_subs f with [] => false | _ => true end) (m_faces twoPrisms) = true) by (vm_compute; reflexivity).
    rewrite forallb_forall in H. specialize (H f Hf). intros K. rewrite K in H. discriminate. }
  split; [vm_compute; reflexivity|]. split.
  { intros c [<-|[<-|[]]]; (split; [split; reflexivity|]); [exists KS; reflexivity|exists (KV 3)]. split; [reflexivity|repeat constructor]. }
  split; [vm_compute; reflexivity|]. vm_compute. reflexivity.
Qed.

(** What is not read back. A vector member whose name contains SCALARS is taken for a scalar column and its
    values are skipped; a name of two words is indexed under its first word; a column with 9 components is
    written under the keyword TENZORS, which the reader does not know. *)
Example C31_vector_named_SCALARS :
  exists text, writeData (writeColumn3 []) 1 [(["mySCALARS"%string], Ve [[1; 2; 3]]%Z)] = Ok text /\
    readData 0%Z 3 1 ([Vw "#"; Vnl] ++ text) [("mySCALARS"%string, KV 3)] = UB.
Proof. eexists. split; vm_compute; reflexivity. Qed.
Example C31_two_word_name :
  exists text, writeData (writeColumn3 []) 1 [(["wall"; "pressure"]%string, Sc [5]%Z)] = Ok text /\
    readData 0%Z 3 1 ([Vw "#"; Vnl] ++ text) [("wall pressure"%string, KS)] = Ok [Sc [0]%Z].
Proof. eexists. split; vm_compute; reflexivity. Qed.
Example C31_tensor :
  exists text, writeData (writeColumn3 []) 1 [(["T"%string], Ve [[1;2;3;4;5;6;7;8;9]]%Z)] = Ok text /\
    readData 0%Z 3 1 ([Vw "#"; Vnl] ++ text) [("T"%string, KV 9)] = UB.
Proof. eexists. split; vm_compute; reflexivity. Qed.
(** A column written for zero cells: data.at(0) throws for vectors. *)
Example C31_no_cells : writeColumn3 (C := Z) [] ["v"%string] (Ve []) = Throw.
Proof. reflexivity. Qed.

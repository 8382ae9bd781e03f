(** C64 and C65: cells written natively by the 3D VTK writer, and the 3D VTK round trip. *)
From Coq Require Import String Permutation.
From Verif Require Import Base P_Base M_Print M_Log S_Json M_Conn M_Mesh S_Mesh M_Text M_Apply P_Apply M_FPMA S_FPMA P_Poly P_FPMA P_FPMAWrite T_FPMA
  M_VTK S_VTK P_Bnd P_VTK P_VTK3 T_VTK3 M_VTKWrite P_VTKWrite P_Tess S_Tess S_Solid P_Solid P_Solid2 T_VTKWrite
  M_Signature T_Signature M_Files M_FilesI T_Files T_FilesI Ex_Mesh.
Local Open Scope list_scope.

(** ** C64 *)
Section C64.
Context {V : Type}.
Variables (ori : list (list bool)) (ccenter fcenter : N -> V) (key : V -> string).
Variables (m : Mesh V) (types : list etype).
Hypothesis W : wf_mesh m.
Hypothesis D : m_dim m = 3.
Hypothesis O : Forall2 (fun o f => length o = length (f_subs f)) ori (m_faces m).

(** A cell whose faces are those of some tetrahedron, pyramid, wedge or hexahedron and that is declared so is
    written as one cell of that type, whose VTK faces are exactly the faces of the mesh cell; no vertex is
    added. The edge order within faces, the direction of edges and the face order are arbitrary. *)
Theorem C64_native_cell c ty vs t : is_solid m c vs -> solid_size ty = Some (length vs) -> nth_error types (N.to_nat c) = Some ty ->
  exists vs' t', index_cell3 ori ccenter fcenter key m types t c = Ok t' /\
    t_cells t' = t_cells t ++ [(vs', ty)] /\ t_verts t' = t_verts t /\ t_back t' = t_back t /\
    is_solid m c vs' /\ Permutation vs vs'.
Proof.
  intros S Z Hty. destruct (cell_solid ori ccenter fcenter key m types W D O c ty vs t S Z Hty) as (vs' & E & S' & L').
  exists vs', (push_cell vs' ty t). splits; auto.
  assert (NV : In (length vs) [4; 5; 6; 8]) by (destruct ty; try discriminate; injection Z as <-; simpl; auto).
  destruct S as (ND & fs & ps & R & P & F). destruct S' as (ND' & fs' & ps' & R' & P' & F').
  apply NoDup_Permutation_bis; auto; [lia|]. intros v Hv.
  apply (cell_verts m c vs' fs' ps' W D ltac:(rewrite L'; exact NV) R' P' F').
  apply (cell_verts m c vs fs ps W D NV R P F). exact Hv.
Qed.

(** The whole mesh: indexing succeeds when every cell declared with a native type is such a solid; the blocks
    of native cells are then single cells with the right faces, the others as in [C29]. *)
Theorem C64_native_mesh :
  (forall c, (c < N.of_nat (length (m_cells m)))%N -> exists ty, nth_error types (N.to_nat c) = Some ty /\
     (native3 ty = false \/ exists vs, is_solid m c vs /\ solid_size ty = Some (length vs))) ->
  exists t blocks, indexMesh3 ori ccenter fcenter key m types = Ok t /\
    (forallb native3 types = true -> t_verts t = []) /\
    length blocks = length (m_cells m) /\ t_cells t = List.concat blocks /\
    forall c b, nth_error blocks (N.to_nat c) = Some b -> exists ty, nth_error types (N.to_nat c) = Some ty /\
      written_for m ccenter fcenter key (m_verts m ++ t_verts t) c ty b /\
      (native3 ty = true -> exists vs, b = [(vs, ty)] /\ is_solid m c vs /\ solid_size ty = Some (length vs)).
Proof.
  intros T. destruct (index_native ori ccenter fcenter key m types W D O T) as (t & E & _ & Z & blocks & L & Cs & B).
  exists t, blocks. splits; auto.
Qed.

(** A cell declared PYRAMID without a face of more than three edges, or WEDGE without a triangle: the code
    dereferences a null pointer. *)
Theorem C64_finding_no_base c ty fs t : ring m c fs -> nth_error types (N.to_nat c) = Some ty ->
  (ty = PYRAMID /\ (forall f fc, In f fs -> nth_error (m_faces m) (N.to_nat f) = Some fc -> length (f_subs fc) <= 3) \/
   ty = WEDGE /\ (forall f fc, In f fs -> nth_error (m_faces m) (N.to_nat f) = Some fc -> length (f_subs fc) <> 3)) ->
  index_cell3 ori ccenter fcenter key m types t c = UB.
Proof.
  intros R Hty H. unfold index_cell3. apply vat_ok in Hty. rewrite Hty. cbn [bind].
  assert (CF : exists l, cell_faces m c = Ok l /\
    Forall2 (fun f x => exists fc, nth_error (m_faces m) (N.to_nat f) = Some fc /\ snd x = length (f_subs fc)) fs l).
  { unfold cell_faces. rewrite (run1_ring m c fs D R). cbn [bind].
    assert (Q : forall f, In f fs -> exists fc, nth_error (m_faces m) (N.to_nat f) = Some fc).
    { intros f Hf. destruct (nth_error (m_faces m) (N.to_nat f)) as [fc|] eqn:E; [eauto|]. apply nth_error_None in E.
      pose proof (ring_lt m c fs f R Hf). lia. }
    clear - Q. induction fs as [|f l IH]; [exists []; split; [reflexivity|constructor]|].
    destruct (Q f (or_introl eq_refl)) as (fc & Hfc). destruct IH as (k & Ek & Fk); [intros; apply Q; right; auto|].
    exists ((f, length (f_subs fc)) :: k). split.
    - cbn [mapM]. pose proof Hfc as Hv. apply vat_ok in Hv. rewrite Hv. cbn [bind]. rewrite Ek. reflexivity.
    - constructor; [eauto|exact Fk]. }
  destruct CF as (l & El & Fl).
  destruct H as [[-> H]|[-> H]]; rewrite El; cbn [bind]; unfold base_pyramid, base_wedge;
    (destruct (find _ _) as [x|] eqn:Ef; [exfalso; apply find_some in Ef as [Hx Ef]|reflexivity]).
  - apply in_rev in Hx. destruct (Forall2_In_r _ _ _ _ Fl Hx) as (f & Hf & fc & Hfc & L). specialize (H f fc Hf Hfc).
    apply Nat.ltb_lt in Ef. lia.
  - destruct (Forall2_In_r _ _ _ _ Fl Hx) as (f & Hf & fc & Hfc & L). specialize (H f fc Hf Hfc).
    apply Nat.eqb_eq in Ef. lia.
Qed.
End C64.
Print Assumptions C64_native_cell.
Print Assumptions C64_native_mesh.
Print Assumptions C64_finding_no_base.

(** ** C65 *)
(** A mesh of tetrahedra, pyramids, wedges and hexahedra without coincident faces, written and read back: the
    same vertices, cell count and types; the faces correspond one to one ([phi]), with the same vertex
    cycles, and every cell is bounded by the images of its faces. The result is well formed, has no two equal
    edges or faces and no face that is not the image of a face of a cell. *)
Theorem C65_vtk3_roundtrip {C} ori ccenter fcenter key (m : Mesh (C * C * C)) types reserve name :
  wf_mesh m -> m_dim m = 3 ->
  Forall2 (fun o f => length o = length (f_subs f)) ori (m_faces m) ->
  length types = length (m_cells m) ->
  (forall c ty, nth_error types (N.to_nat c) = Some ty -> exists vs, is_solid m c vs /\ solid_size ty = Some (length vs)) ->
  (forall f g p q, face_polygon m f p -> face_polygon m g q -> same_sides p q -> f = g) ->
  (N.of_nat (6 * length (m_cells m)) <= INVALID)%N -> one_line name -> reserve = 0 \/ 4 <= reserve ->
  exists ts m', writeVTK3 ori ccenter fcenter key m types = Ok ts /\
    loadVTK3 reserve (writeHeader name ++ ts) (emptyMesh 3) [] = Ok (m', types) /\
    wf_mesh m' /\ m_dim m' = 3 /\ m_verts m' = m_verts m /\ length (m_cells m') = length (m_cells m) /\
    (forall e e' a b, joins (edges3 m') e a b -> joins (edges3 m') e' a b -> e = e') /\
    (forall f g p q, face_polygon m' f p -> face_polygon m' g q -> same_sides p q -> f = g) /\
    exists phi : N -> N,
      (forall c fs, ring m c fs -> exists fs', ring m' c fs' /\ Permutation (map phi fs) fs') /\
      (forall c fs f p, ring m c fs -> In f fs -> (face_polygon m f p <-> face_polygon m' (phi f) p)) /\
      (forall c c' fs fs' f g, ring m c fs -> In f fs -> ring m c' fs' -> In g fs' -> phi f = phi g -> f = g) /\
      (forall f', (f' < N.of_nat (length (m_faces m')))%N -> exists c fs f, ring m c fs /\ In f fs /\ f' = phi f).
Proof.
  intros W D O LT T UF SZ HN HR.
  destruct (roundtrip3 ori ccenter fcenter key m types W D O LT T UF SZ reserve name HN HR)
    as (ts & m' & Ew & El & W' & D' & V' & L' & J' & U' & phi & P1 & P2 & P3).
  exists ts, m'. splits; auto. exists phi. splits; auto.
  intros c c' fs fs' f g R Hf R' Hg E.
  assert (Pf : forall c fs f, ring m c fs -> In f fs -> exists p, face_polygon m f p).
  { clear - T LT W D. intros c fs f R Hf. pose proof (c_lt m c [] fs D R) as Hc.
    destruct (nth_error types (N.to_nat c)) as [ty|] eqn:Et; [|apply nth_error_None in Et; lia].
    destruct (T c ty Et) as (vs & (_ & fs2 & ps & R2 & _ & F) & _). rewrite (ring_det _ _ _ _ R2 R) in F.
    destruct (Forall2_In_l _ _ _ _ F Hf) as (p & _ & B). eauto. }
  destruct (Pf c fs f R Hf) as (p & Bp).
  assert (Bg : face_polygon m g p). { apply (P2 c' fs' g p R' Hg). rewrite <- E. apply (P2 c fs f p R Hf). exact Bp. }
  apply (UF f g p p Bp Bg). intros a b. reflexivity.
Qed.
Print Assumptions C65_vtk3_roundtrip.

(** The same through files: [write] to a path ending in .vtk and [load] of that path. [geo] stands for the
    normals' orientation and centres the writer computes. *)
Theorem C65_file : forall C hi hc he he2 flag partText hv reserve geo key partialV partialF h0 i0 canOpen
    (d : @disk (@piece C)) path w (m : Mesh (C * C * C)) types name,
  wf_mesh m -> m_dim m = 3 ->
  Forall2 (fun o f => length o = length (f_subs f)) (fst (fst (geo m))) (m_faces m) ->
  length types = length (m_cells m) -> types <> [] ->
  (forall c ty, nth_error types (N.to_nat c) = Some ty -> exists vs, is_solid m c vs /\ solid_size ty = Some (length vs)) ->
  (forall f g p q, face_polygon m f p -> face_polygon m g q -> same_sides p q -> f = g) ->
  (N.of_nat (6 * length (m_cells m)) <= INVALID)%N -> one_line name -> reserve = 0 \/ 4 <= reserve ->
  signature hi hc he he2 hv m <> 0%N ->
  endsIn (lit ".vtk") path -> ~ has (lit ".fpma") path -> canOpen path = true -> (forall s, w <> Some (WV s)) ->
  let r := write3 hi hc he he2 partText hv geo key partialV partialF h0 i0 canOpen d path w m types name in
  r_end r = Ok tt /\ (forall k, k <> path -> r_disk r k = d k) /\
  exists m', load3 flag reserve (r_disk r) path (emptyMesh 3) = Ok (m', Some (RV types)) /\
    wf_mesh m' /\ m_dim m' = 3 /\ m_verts m' = m_verts m /\ length (m_cells m') = length (m_cells m) /\
    exists phi : N -> N,
      (forall c fs, ring m c fs -> exists fs', ring m' c fs' /\ Permutation (map phi fs) fs') /\
      (forall c fs f p, ring m c fs -> In f fs -> (face_polygon m f p <-> face_polygon m' (phi f) p)).
Proof.
  intros C hi hc he he2 flag partText hv reserve geo key partialV partialF h0 i0 canOpen d path w m types name
    W D OR LT NE T UF SZ NM HR H0 E NF O NW r.
  destruct (C65_vtk3_roundtrip (fst (fst (geo m))) (snd (fst (geo m))) (snd (geo m)) key m types reserve name W D OR LT T UF SZ NM HR)
    as (ts & m' & Ew & El & W' & D' & V' & L' & J' & U' & phi & P1 & P2 & _).
  set (s0 := mkW 0%N (@mkTess (C * C * C) [] [] [] [])).
  assert (Hw : writeV3 hi hc he he2 partText hv geo key partialV s0 m types =
               (map inl ts, snd (vtk3_write hi hc he he2 hv geo key partialV s0 (m, types)), Ok tt)).
  { unfold writeV3, finish, mapR. cbn [fst snd].
    pose proof (C32_vtk3 hi hc he he2 hv geo key partialV 0%N (@mkTess (C * C * C) [] [] [] []) [] m types) as Q. cbn [crun hd app map] in Q.
    fold s0 in Q. rewrite Q; auto.
    - rewrite Ew. reflexivity.
    - intros x [<-|[]]. unfold writeVTK3 in Ew. cbn [fst snd].
      destruct (indexMesh3 (fst (fst (geo m))) (snd (fst (geo m))) (snd (geo m)) key m types) as [i| | |]; try discriminate. eauto.
    - intros x []. }
  assert (Hn : match w with Some (WV s) => s | _ => s0 end = s0).
  { destruct w as [[s|s]|]; auto. exfalso. exact (NW s eq_refl). }
  destruct (C62_vtk s0 (mkW h0 i0) (writeV3 hi hc he he2 partText hv geo key partialV)
    (writeF3 hi hc he he2 partText hv partialF) (fun h => map inl (writeHeader (vtkPart h)))
    (fun ty => match ty with [] => true | _ => false end) (fun m => repeat POLYHEDRON (length (m_cells m)))
    canOpen true d path m types (map inl name) w (map inl ts) (snd (vtk3_write hi hc he he2 hv geo key partialV s0 (m, types))) E O) as (R1 & R2 & R3).
  { rewrite Hn. destruct types; [congruence|exact Hw]. }
  splits.
  - exact R1.
  - intros k N. apply C62_others. exact N.
  - exists m'. splits; auto; [|exists phi; auto]. unfold load3.
    destruct (C61_vtk (readV3 flag reserve) (readF3 reserve) (r_disk r) path (emptyMesh 3) _ R2) as (L2 & L3).
    + destruct E as (a & ->). exists a, []. rewrite app_nil_r. reflexivity.
    + rewrite (L3 NF), L2. unfold readV3. rewrite vtkPart_app, !vtkPart_inl, El. reflexivity.
Qed.
Print Assumptions C65_file.

(** ** Instances *)
(** A checker for [bounds] with a given polygon, one for [is_solid] and one for distinct faces. *)
Definition bounds_with (edges : list (list N)) (es vs : list N) : bool :=
  let es' := map (fun p => match filter (fun e => joinsb edges e p) es with e :: _ => e | [] => 0%N end) (cyc_pairs vs) in
  nodupb vs && (3 <=? length vs)%nat && forall2b edges es' (cyc_pairs vs) && nodupb es' &&
  forallb (fun e => existsb (N.eqb e) es) es' && (length es =? length es')%nat.
Lemma bounds_with_sound edges es vs : bounds_with edges es vs = true -> bounds edges es vs.
Proof.
  unfold bounds_with. cbv zeta.
  match goal with |- context [map ?g (cyc_pairs vs)] => generalize g end. intros g.
  rewrite !andb_true_iff. intros [[[[[H1 H2] H3] H4] H5] H6].
  split; [split; [apply nodupb_sound; assumption|apply Nat.leb_le; assumption]|].
  eexists. split; [|split; [apply nodupb_sound; exact H4|]].
  - apply Permutation_sym. apply NoDup_Permutation_bis.
    + apply nodupb_sound; assumption.
    + apply Nat.eqb_eq in H6. rewrite H6. apply Nat.le_refl.
    + intros e He. rewrite forallb_forall in H5. apply existsb_Neqb. apply H5. assumption.
  - apply sides_of_iff. clear - H3. revert H3. generalize (cyc_pairs vs) as ps.
    intros ps. generalize (map g ps) as l. intros l. revert ps.
    induction l as [|e l IH]; intros [|p ps] H; simpl in H; try discriminate; constructor.
    + apply andb_true_iff in H as [H _]. apply joinsb_sound. assumption.
    + apply andb_true_iff in H as [_ H]. apply IH. assumption.
Qed.
Definition findpoly {V} (m : Mesh V) (qs : list (list N)) (f : N) : list N :=
  match nth_error (m_faces m) (N.to_nat f) with
  | Some fc => match filter (bounds_with (nth 0 (m_mid m) []) (f_subs fc)) qs with q :: _ => q | [] => [] end
  | None => []
  end.
Fixpoint nodupL (l : list (list N)) : bool :=
  match l with [] => true | x :: r => negb (if in_dec (list_eq_dec N.eq_dec) x r then true else false) && nodupL r end.
Lemma nodupL_sound l : nodupL l = true -> NoDup l.
Proof.
  induction l as [|x l IH]; intros H; [constructor|]. cbn in H. apply andb_true_iff in H as [H1 H2].
  constructor; auto. destruct (in_dec _ x l); [discriminate|auto].
Qed.
Definition solidb {V} (m : Mesh V) (c : N) (vs : list N) : bool :=
  nodupb vs && match ring_walk m c (fun f => Ok f) with
  | Ok fs => let ps := map (findpoly m (faces_of vs)) fs in
      nodupL ps && forallb (fun p => (3 <=? length p)%nat) ps && (length (faces_of vs) <=? length ps)%nat
  | _ => false
  end.
Lemma solidb_sound {V} (m : Mesh V) c vs : solidb m c vs = true -> is_solid m c vs.
Proof.
  unfold solidb. rewrite andb_true_iff. intros [H1 H2]. split; [now apply nodupb_sound|].
  destruct (ring_walk m c (fun f => Ok f)) as [fs| | |] eqn:E; try discriminate. cbv zeta in H2.
  rewrite !andb_true_iff in H2. destruct H2 as [[H2 H3] H4]. exists fs, (map (findpoly m (faces_of vs)) fs).
  split; [now apply ring_iff|]. rewrite forallb_forall in H3. apply Nat.leb_le in H4.
  assert (Q : forall f, In f fs -> face_polygon m f (findpoly m (faces_of vs) f) /\ In (findpoly m (faces_of vs) f) (faces_of vs)).
  { intros f Hf. specialize (H3 _ (in_map _ _ _ Hf)). apply Nat.leb_le in H3.
    unfold findpoly in *. destruct (nth_error (m_faces m) (N.to_nat f)) as [fc|] eqn:Ef; [|simpl in H3; lia].
    destruct (filter _ _) as [|q l] eqn:Eq; [simpl in H3; lia|].
    assert (Hq : In q (q :: l)) by now left. rewrite <- Eq in Hq. apply filter_In in Hq as [I B].
    split; auto. exists fc. split; auto. now apply bounds_with_sound. }
  split.
  - apply NoDup_Permutation_bis; auto; [now apply nodupL_sound|]. intros p Hp. apply in_map_iff in Hp as (f & <- & Hf). now apply Q.
  - clear - Q. induction fs as [|f fs IH]; [constructor|]. constructor; [apply Q; now left|]. apply IH. intros; apply Q; now right.
Qed.
Definition distinctb {V} (m : Mesh V) : bool :=
  let n := length (m_faces m) in
  forallb (fun f => forallb (fun g => (f =? g)%nat ||
    match nth_error (m_faces m) f, nth_error (m_faces m) g with
    | Some fc, Some gc => existsb (fun e => match nth_error (nth 0 (m_mid m) []) (N.to_nat e) with
         | Some [a; b] => forallb (fun e' => negb (joinsb (nth 0 (m_mid m) []) e' (a, b))) (f_subs gc) | _ => false end) (f_subs fc)
    | _, _ => false end) (seq 0 n)) (seq 0 n).
Lemma distinct_faces {V} (m : Mesh V) : distinctb m = true ->
  forall f g p q, face_polygon m f p -> face_polygon m g q -> same_sides p q -> f = g.
Proof.
  intros H f g p q (fc & Hf & Bf) (gc & Hg & Bg) S.
  destruct (Nat.eq_dec (N.to_nat f) (N.to_nat g)) as [E|E]; [lia|]. exfalso.
  unfold distinctb in H. rewrite forallb_forall in H.
  specialize (H (N.to_nat f)). rewrite forallb_forall in H.
  specialize (H ltac:(apply in_seq; split; [lia|]; apply nth_error_Some; congruence) (N.to_nat g)).
  specialize (H ltac:(apply in_seq; split; [lia|]; apply nth_error_Some; congruence)).
  apply orb_true_iff in H as [H|H]; [apply Nat.eqb_eq in H; auto|]. rewrite Hf, Hg in H.
  apply existsb_exists in H as (e & He & H). destruct (nth_error (nth 0 (m_mid m) []) (N.to_nat e)) as [[|a [|b [|]]]|] eqn:Ee; try discriminate.
  assert (HS : has_side p a b). { apply (bounds_has_side _ _ _ a b Bf). exists e. split; auto. left. exact Ee. }
  apply S in HS. apply (bounds_has_side _ _ _ a b Bg) in HS as (e' & He' & J).
  rewrite forallb_forall in H. specialize (H e' He'). apply negb_true_iff in H.
  unfold joinsb in H. destruct J as [J|J]; rewrite J in H; cbn [fst snd] in H; rewrite !N.eqb_refl in H; cbn in H; [discriminate|].
  rewrite orb_true_r in H. discriminate.
Qed.

Local Open Scope N_scope.
(** The two prisms as wedges. *)
Example C65_instance :
  let types := [WEDGE; WEDGE] in
  Forall2 (fun o f => length o = length (f_subs f)) prismOri (m_faces twoPrisms) /\
  (forall c ty, nth_error types (N.to_nat c) = Some ty -> exists vs, is_solid twoPrisms c vs /\ solid_size ty = Some (length vs)) /\
  (forall f g p q, face_polygon twoPrisms f p -> face_polygon twoPrisms g q -> same_sides p q -> f = g) /\
  exists ts m', writeVTK3 prismOri (fun c => (100 + Z.of_N c, 0, 0)%Z) (fun f => (200 + Z.of_N f, 0, 0)%Z) zkey twoPrisms types = Ok ts /\
    loadVTK3 0 (writeHeader [Vw "grid"] ++ ts) (emptyMesh 3) [] = Ok (m', types) /\
    length (m_faces m') = 9%nat /\ length (edges3 m') = 14%nat /\
    firstn 16 (skipn 41 ts) = Vn 6 :: map (fun x => Vn x) [1;0;2;5;4;6] ++ [Vnl; Vn 6] ++ map (fun x => Vn x) [1;2;3;5;6;7] ++ [Vnl].
Proof.
  intros types. splits.
  - apply Forall2_nth. vm_compute. split; [reflexivity|]. intros i o f Ho Hf.
    do 9 (destruct i as [|i]; [vm_compute in Ho, Hf; injection Ho as <-; injection Hf as <-; reflexivity|]). destruct i; discriminate.
  - intros c ty Hc. subst types.
    destruct (N.to_nat c) as [|[|k]] eqn:Ec; [| |destruct k; discriminate].
    + assert (c = 0) by lia. subst c. injection Hc as <-. exists [0;1;2;4;5;6]. split; [apply solidb_sound; vm_compute; reflexivity|reflexivity].
    + assert (c = 1) by lia. subst c. injection Hc as <-. exists [1;3;2;5;7;6]. split; [apply solidb_sound; vm_compute; reflexivity|reflexivity].
  - apply distinct_faces. vm_compute. reflexivity.
  - eexists _, _. split; [vm_compute; reflexivity|]. split; [vm_compute; reflexivity|]. splits; vm_compute; reflexivity.
Qed.

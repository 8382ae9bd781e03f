(** C63: a mesh written to a file and loaded from it. *)
From Coq Require Import String Ascii ZArith Lia.
From Verif Require Import Base P_Base M_Print M_Log S_Json M_Conn M_Mesh M_Text M_FPMA M_VTK M_VTKWrite M_Signature M_Files M_FilesI
  S_Mesh S_FPMA S_VTK P_FPMAWrite P_RoundTrip Ex_Mesh T_FPMA T_VTKWrite T_Signature T_Files.
Local Open Scope list_scope.

Lemma vtkPart_inl {C} (l : list (vtok C)) : vtkPart (map inl l) = l.
Proof. unfold vtkPart. induction l as [|a l IH]; auto. cbn. now rewrite IH. Qed.
Lemma vtkPart_app {C} (a b : list (@piece C)) : vtkPart (a ++ b) = vtkPart a ++ vtkPart b.
Proof. apply flat_map_app. Qed.
Lemma fpmaPart_inr {C} (l : list (tok C)) : fpmaPart (map inr l) = l.
Proof. unfold fpmaPart. induction l as [|a l IH]; auto. cbn. now rewrite IH. Qed.

(** FPMA, three dimensions: writing with no writer or a VTK writer to a path ending in .fpma and loading the
    same path into a new mesh. [h0] is the uninitialised lastHash of the new writer. *)
Theorem C63_fpma : forall C hi hc he he2 flag partText hv reserve geo key partialV partialF h0 i0 canOpen
    (d : @disk (@piece C)) path w (m : Mesh (C * C * C)) types name,
  wf_mesh m -> m_dim m = 3 ->
  (forall f, In f (m_faces m) -> exists vs, bounds (mesh_edges m) (f_subs f) vs) ->
  (N.of_nat (length (m_faces m)) <= INVALID)%N -> (N.of_nat (length (m_cells m)) <= INVALID)%N ->
  (reserve = 0 \/ forall f, In f (m_faces m) -> length (f_subs f) <= reserve) ->
  h0 <> signature hi hc he he2 hv m ->
  endsIn (lit ".fpma") path -> ~ has (lit ".vtk") path -> canOpen path = true ->
  (forall s, w <> Some (WF s)) ->
  let r := write3 hi hc he he2 partText hv geo key partialV partialF h0 i0 canOpen d path w m types name in
  r_end r = Ok tt /\ (forall k, k <> path -> r_disk r k = d k) /\
  exists m', load3 flag reserve (r_disk r) path (emptyMesh 3) = Ok (m', Some (RF (repeat POLYHEDRON (length (m_cells m))))) /\
    wf_mesh m' /\ m_dim m' = 3 /\ m_verts m' = m_verts m /\
    length (m_faces m') = length (m_faces m) /\ length (m_cells m') = length (m_cells m) /\
    (forall c fs, ring m' c fs <-> ring m c fs) /\
    (forall i f f' vs, nth_error (m_faces m) i = Some f -> nth_error (m_faces m') i = Some f' ->
       (bounds (mesh_edges m') (f_subs f') vs <-> bounds (mesh_edges m) (f_subs f) vs)).
Proof.
  intros C hi hc he he2 flag partText hv reserve geo key partialV partialF h0 i0 canOpen d path w m types name
    W D B SF SC HR H0 E NV O NW r.
  destruct (C22_fpma_roundtrip C m reserve W D B SF SC HR) as (ts & m' & Ew & El & W' & D' & V' & Lf & Lc & R & P).
  assert (Hw : writeF3 hi hc he he2 partText hv partialF (mkW h0 i0) m =
               (map inr ts, snd (fpma_write hi hc he he2 hv partialF (mkW h0 i0) m), Ok tt)).
  { unfold writeF3, finish, mapR. cbn [fst snd].
    pose proof (C32_fpma hi hc he he2 hv partialF h0 i0 [] m) as Q. cbn [crun hd app] in Q. rewrite Q; auto.
    - rewrite Ew. reflexivity.
    - intros x [<-|[]]. unfold writeFPMA in Ew. destruct (indexMeshFPMA m) as [i| | |]; try discriminate. eauto.
    - intros x []. }
  assert (Hn : match w with Some (WF s) => s | _ => mkW h0 i0 end = mkW h0 i0).
  { destruct w as [[s|s]|]; auto. exfalso. exact (NW s eq_refl). }
  destruct (C62_fpma (mkW 0%N (mkTess [] [] [] [])) (mkW h0 i0) (writeV3 hi hc he he2 partText hv geo key partialV)
    (writeF3 hi hc he he2 partText hv partialF) (fun h => map inl (writeHeader (vtkPart h)))
    (fun ty => match ty with [] => true | _ => false end) (fun m => repeat POLYHEDRON (length (m_cells m)))
    canOpen true d path m types (map inl name) w (map inr ts) (snd (fpma_write hi hc he he2 hv partialF (mkW h0 i0) m)) eq_refl E O) as (R1 & R2 & R3).
  { rewrite Hn. exact Hw. }
  splits.
  - exact R1.
  - intros k N. apply C62_others. exact N.
  - exists m'. splits; auto. unfold load3.
    destruct (C61_fpma (readV3 flag reserve) (readF3 reserve) (r_disk r) path (emptyMesh 3) _ R2) as (L3 & _); auto.
    + destruct E as (a & ->). exists a, []. rewrite app_nil_r. reflexivity.
    + rewrite L3. unfold readF3. rewrite fpmaPart_inr, El. cbn. rewrite Lc. reflexivity.
Qed.

(** VTK, two dimensions. *)
Theorem C63_vtk2 : forall C hi hc he he2 flag partText hv (zero : C) h0 i0 canOpen
    (d : @disk (@piece C)) path (w : option (@writer _ unit)) (m : Mesh (C * C)) types codes name,
  (forall c, (c < N.of_nat (length (m_cells m)))%N -> exists es vs, ring m c es /\ bounds (edges2 m) es vs) ->
  (forall e e' a b, joins (edges2 m) e a b -> joins (edges2 m) e' a b -> e = e') ->
  (N.of_nat (length (m_cells m)) <= INVALID)%N -> (N.of_nat (2 * length (m_faces m)) <= INVALID)%N ->
  Forall2 (fun t n => vtkCode2 t = Some n) types codes -> types = [] \/ length types = length (m_cells m) ->
  one_line name -> m_dim m = 2 ->
  h0 <> signature hi hc he he2 hv m -> w = None ->
  endsIn (lit ".vtk") path -> canOpen path = true ->
  let r := write2 hi hc he he2 partText hv zero h0 i0 canOpen d path w m types name in
  r_end r = Ok tt /\ (forall k, k <> path -> r_disk r k = d k) /\
  exists m', load2 flag (r_disk r) path (emptyMesh 2) =
      Ok (m', Some (RV (match types with [] => repeat POLYGON (length (m_cells m)) | _ => types end))) /\
    m_dim m' = 2 /\ m_verts m' = m_verts m /\ length (m_cells m') = length (m_cells m) /\
    (forall e e' a b, joins (edges2 m') e a b -> joins (edges2 m') e' a b -> e = e') /\
    (forall c es, ring m c es -> exists es', ring m' c es' /\
       (forall vs, bounds (edges2 m) es vs <-> bounds (edges2 m') es' vs)).
Proof.
  intros C hi hc he he2 flag partText hv zero h0 i0 canOpen d path w m types codes name
    HC HE LC LF HT HL NM D H0 -> E O r.
  set (tys := match types with [] => repeat POLYGON (length (m_cells m)) | _ => types end).
  assert (HT' : exists codes', Forall2 (fun t n => vtkCode2 t = Some n) tys codes' /\ length tys = length (m_cells m)).
  { unfold tys. destruct types as [|t types].
    - exists (repeat 7%N (length (m_cells m))). split; [|apply repeat_length].
      generalize (length (m_cells m)). clear. intros n. induction n; constructor; auto.
    - exists codes. split; auto. destruct HL as [HL|HL]; [discriminate|auto]. }
  destruct HT' as (codes' & HT' & HL').
  destruct (C25_vtk2_roundtrip m zero tys codes' name HC HE LC LF HT' HL' NM D)
    as (ts & m' & Ew & El & D' & V' & Lc & J' & R).
  assert (Hw : writeV2 hi hc he he2 partText hv zero (mkW h0 i0) m tys =
               (map inl ts, snd (vtk2_write hi hc he he2 hv zero (mkW h0 i0) (m, tys)), Ok tt)).
  { unfold writeV2, finish, mapR. cbn [fst snd].
    pose proof (C32_vtk2 hi hc he he2 hv zero h0 i0 [] m tys) as Q. cbn [crun hd app map] in Q. rewrite Q; auto.
    - rewrite Ew. reflexivity.
    - intros x [<-|[]]. unfold writeVTK2 in Ew. destruct (indexMesh2 m) as [i| | |]; try discriminate. eauto.
    - intros x []. }
  destruct (C62_vtk (mkW h0 i0) tt (writeV2 hi hc he he2 partText hv zero)
    (fun s _ => ([], s, UB)) (fun h => map inl (writeHeader (vtkPart h)))
    (fun ty => match ty with [] => true | _ => false end) (fun m => repeat POLYGON (length (m_cells m)))
    canOpen false d path m types (map inl name) None (map inl ts) (snd (vtk2_write hi hc he he2 hv zero (mkW h0 i0) (m, tys))) E O) as (R1 & R2 & R3).
  { etransitivity; [|exact Hw]. unfold tys. destruct types; reflexivity. }
  splits.
  - exact R1.
  - intros k N. apply C62_others. exact N.
  - exists m'. splits; auto. unfold load2.
    destruct (C61_vtk (readV2 flag) (fun _ _ => UB) (r_disk r) path (emptyMesh 2) _ R2) as (L2 & _); auto.
    + destruct E as (a & ->). exists a, []. rewrite app_nil_r. reflexivity.
    + rewrite L2. unfold readV2. rewrite vtkPart_app, !vtkPart_inl, El. reflexivity.
Qed.

(** Reading decides by the whole path, writing by its end: a mesh written to old.vtk.d/m.fpma is an FPMA file,
    which load gives to the VTK reader first. *)
Example C63_finding_path :
  endsIn (lit ".fpma") (lit "old.vtk.d/m.fpma") /\ has (lit ".vtk") (lit "old.vtk.d/m.fpma").
Proof. split; [exists (lit "old.vtk.d/m"); reflexivity|exists (lit "old"), (lit ".d/m.fpma"); reflexivity]. Qed.

(** Two prisms written to grid.fpma and loaded back; nothing else is on the disk after. *)
Example C63_instance : forall hi hc he he2 flag hv geo key partialV partialF,
  let r := write3 hi hc he he2 [] hv geo key partialV partialF (signature hi hc he he2 hv twoPrisms + 1)%N ([], [])
             (fun _ => true) (fun _ => None) (lit "grid.fpma") None twoPrisms [] [] in
  exists m', load3 flag 0 (r_disk r) (lit "grid.fpma") (emptyMesh 3) = Ok (m', Some (RF [POLYHEDRON; POLYHEDRON])) /\ length (m_faces m') = 9%nat.
Proof.
  intros. destruct (C63_fpma Z hi hc he he2 flag [] hv 0 geo key partialV partialF
    (signature hi hc he he2 hv twoPrisms + 1)%N ([], []) (fun _ => true) (fun _ => None) (lit "grid.fpma") None twoPrisms [] [])
    as (_ & _ & m' & L & _ & _ & _ & F & _); auto.
  - apply twoPrisms_wf.
  - apply (proj1 (proj2 (proj2 C22_instance))).
  - vm_compute. discriminate.
  - vm_compute. discriminate.
  - lia.
  - exists (lit "grid"). reflexivity.
  - rewrite <- contains_spec. vm_compute. discriminate.
  - discriminate.
  - exists m'. split; [exact L|exact F].
Qed.

Print Assumptions C61_missing.
Print Assumptions C61_fpma.
Print Assumptions C61_vtk.
Print Assumptions C61_unknown.
Print Assumptions C61_finding_both.
Print Assumptions C62_others.
Print Assumptions C62_vtk.
Print Assumptions C62_fpma.
Print Assumptions C62_new.
Print Assumptions C62_finding_unknown.
Print Assumptions C62_finding_nodot.
Print Assumptions C62_no_open.
Print Assumptions C63_fpma.
Print Assumptions C63_vtk2.

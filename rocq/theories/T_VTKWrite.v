(** C25 and C29: the VTK writers. *)
From Coq Require Import String.
From Verif Require Import P_Base M_Conn S_Conn P_Conn M_Mesh S_Mesh M_Text M_Apply P_Apply M_FPMA S_FPMA P_Poly P_FPMA P_FPMAWrite T_FPMA
  M_VTK S_VTK P_Bnd P_VTK T_VTK M_VTKWrite P_VTKWrite S_Tess P_Tess Ex_Mesh.
Local Open Scope list_scope.

(** ** C25 *)
(** The vertex list written for a planar cell is the polygon of its edge ring; it starts along the first
    edge, forwards when the cell is the left cell of that edge, else backwards. *)
Theorem C25_cell_polygon {C} (m : Mesh (C * C)) c es vs :
  ring m c es -> bounds (edges2 m) es vs ->
  exists vs' e0 f a b, indexCell m c = Ok vs' /\ same_polygon vs vs' /\
    nth_error es 0 = Some e0 /\ nth_error (m_faces m) (N.to_nat e0) = Some f /\ f_subs f = [a; b] /\
    firstn 2 vs' = if (cellLeft (bc (f_conn f)) =? c)%N then [a; b] else [b; a].
Proof. apply indexCell_spec. Qed.
Print Assumptions C25_cell_polygon.

(** The written text is a well formed file with these polygons. *)
Theorem C25_vtk2_text {C} (m : Mesh (C * C)) (zero : C) types codes :
  (forall c, (c < N.of_nat (length (m_cells m)))%N -> exists es vs, ring m c es /\ bounds (edges2 m) es vs) ->
  Forall2 (fun t n => vtkCode2 t = Some n) types codes -> length types = length (m_cells m) ->
  exists polys,
    writeVTK2 zero m types = Ok (vtk_body (mkVtk (map (fun p => (fst p, snd p, zero)) (m_verts m)) polys codes)) /\
    length polys = length (m_cells m) /\
    (forall c vs, nth_error polys (N.to_nat c) = Some vs -> exists es, ring m c es /\ bounds (edges2 m) es vs).
Proof.
  intros HC HT HL.
  assert (E : exists polys, indexMesh2 m = Ok (polys, countWritten polys) /\ length polys = length (m_cells m) /\
    forall c vs', nth_error polys (N.to_nat c) = Some vs' -> exists es, ring m c es /\ bounds (edges2 m) es vs' /\ indexCell m c = Ok vs').
  { apply index2_spec. exact HC. }
  destruct E as (polys & E & L & H). exists polys. split.
  - unfold writeVTK2. rewrite E. cbn [bind]. eapply emit2_spec; eassumption.
  - split; [assumption|]. intros c vs Hc. destruct (H c vs Hc) as (es & R & B & _). eauto.
Qed.
Print Assumptions C25_vtk2_text.

(** Writing and reading back gives the same vertices, cell types, and for every cell the same polygon. *)
Theorem C25_vtk2_roundtrip {C} (m : Mesh (C * C)) (zero : C) types codes name :
  (forall c, (c < N.of_nat (length (m_cells m)))%N -> exists es vs, ring m c es /\ bounds (edges2 m) es vs) ->
  (forall e e' a b, joins (edges2 m) e a b -> joins (edges2 m) e' a b -> e = e') ->
  (N.of_nat (length (m_cells m)) <= INVALID)%N -> (N.of_nat (2 * length (m_faces m)) <= INVALID)%N ->
  Forall2 (fun t n => vtkCode2 t = Some n) types codes -> length types = length (m_cells m) ->
  one_line name -> m_dim m = 2 ->
  exists ts m', writeVTK2 zero m types = Ok ts /\
    loadVTK2 (writeHeader name ++ ts) (emptyMesh 2) [] = Ok (m', types) /\
    m_dim m' = 2 /\ m_verts m' = m_verts m /\ length (m_cells m') = length (m_cells m) /\
    (forall e e' a b, joins (edges2 m') e a b -> joins (edges2 m') e' a b -> e = e') /\
    (forall c es, ring m c es -> exists es', ring m' c es' /\
       (forall vs, bounds (edges2 m) es vs <-> bounds (edges2 m') es' vs)).
Proof. intros. eapply roundtrip2; eassumption. Qed.
Print Assumptions C25_vtk2_roundtrip.

Example C25_instance :
  (forall c, (c < N.of_nat (length (m_cells twoTriangles)))%N -> exists es vs, ring twoTriangles c es /\ bounds (edges2 twoTriangles) es vs) /\
  exists ts m', writeVTK2 0%Z twoTriangles [TRIANGLE; TRIANGLE] = Ok ts /\
    loadVTK2 (writeHeader [Vw "grid"] ++ ts) (emptyMesh 2) [] = Ok (m', [TRIANGLE; TRIANGLE]) /\
    edges2 m' = [[0;1];[1;2];[2;0];[1;3];[3;2]]%N /\
    indexMesh2 twoTriangles = Ok ([[0;1;2];[2;1;3]], 8)%N.
Proof.
  split.
  - intros c Hc.
    assert (K : forall es, ring_walk twoTriangles c (fun f => Ok f) = Ok es ->
       bounds_check (edges2 twoTriangles) es = true -> exists es' vs, ring twoTriangles c es' /\ bounds (edges2 twoTriangles) es' vs).
    { intros es E B. apply ring_iff in E. apply bounds_check_sound in B as [vs B]. eauto. }
    assert (H : c = 0%N \/ c = 1%N) by (change (c < 2)%N in Hc; lia).
    destruct H as [-> | ->]; (eapply K; [vm_compute; reflexivity|vm_compute; reflexivity]).
  - eexists _, _. split; [vm_compute; reflexivity|]. split; [vm_compute; reflexivity|]. split; vm_compute; reflexivity.
Qed.

(** ** C29 *)
Section C29.
Context {V : Type}.
Variables (ori : list (list bool)) (ccenter fcenter : N -> V) (key : V -> string).
Variables (m : Mesh V) (types : list etype) (t : @tess V).
Hypothesis W : wf_mesh m.
Hypothesis D : m_dim m = 3.
Hypothesis E : indexMesh3 ori ccenter fcenter key m types = Ok t.

Lemma numbered_in {A} (l : list A) : forall k i a, In (i, a) (numbered k l) <->
  exists j, i = (k + N.of_nat j)%N /\ nth_error l j = Some a.
Proof.
  induction l as [|x l IH]; intros k i a; simpl.
  - split; [tauto|]. intros ([|j] & _ & H); discriminate.
  - rewrite IH. split.
    + intros [H|(j & -> & H)]; [injection H as <- <-; exists 0; split; [lia|reflexivity]|].
      exists (S j). split; [lia|assumption].
    + intros ([|j] & -> & H); [left; injection H as ->; f_equal; lia|]. right. exists j. split; [lia|assumption].
Qed.

(** The emitted cells are, cell after cell, the cell itself or its tetrahedra; the backward map contains
    exactly the emitted tetrahedra with the cell each comes from, in increasing order (newest first here);
    the appended vertices are centres with pairwise different keys. *)
Theorem C29_tessellation : exists blocks,
  length blocks = length (m_cells m) /\ t_cells t = List.concat blocks /\
  (forall c b, nth_error blocks (N.to_nat c) = Some b -> exists ty, nth_error types (N.to_nat c) = Some ty /\
     written_for m ccenter fcenter key (m_verts m ++ t_verts t) c ty b) /\
  (forall k c, In (k, c) (t_back t) <->
     nth_error (sources 0 (map (@length _) blocks)) (N.to_nat k) = Some c /\
     exists ty, nth_error types (N.to_nat c) = Some ty /\ native3 ty = false) /\
  rev (t_back t) = filter (fun p => negb (native3 (nth (N.to_nat (snd p)) types Tdefault)))
                          (numbered 0 (sources 0 (map (@length _) blocks))) /\
  NoDup (map key (t_verts t)) /\ (forall p, In p (t_verts t) -> is_centre m ccenter fcenter p).
Proof.
  pose proof (indexMesh3_centre ori ccenter fcenter key m D types t E) as AC. rewrite Forall_forall in AC.
  destruct (indexMesh3_inv ori ccenter fcenter key m W D types t E) as ((_ & _ & K) & blocks & L & Ec & HB & Eb).
  exists blocks. splits; auto. intros k c. rewrite in_rev, Eb, filter_In, numbered_in. cbn [snd].
  assert (T : forall j, nth_error (sources 0 (map (@length _) blocks)) j = Some c ->
     exists ty, nth_error types (N.to_nat c) = Some ty).
  { intros j Hj. assert (Hc : (0 <= c < 0 + N.of_nat (length (map (@length _) blocks)))%N).
    { clear -Hj. apply nth_error_In in Hj. revert Hj. generalize 0%N as c0. induction (map (@length (list N * etype)) blocks) as [|n r IH]; intros c0 H; simpl in H; [contradiction|].
      apply in_app_iff in H as [H|H]; [apply repeat_spec in H; simpl; lia|]. apply IH in H. simpl. lia. }
    rewrite map_length in Hc. destruct (nth_error blocks (N.to_nat c)) as [b|] eqn:Hb; [|apply nth_error_None in Hb; lia].
    destruct (HB c b Hb) as (ty & Hty & _). eauto. }
  split.
  - intros [(j & -> & Hj) Hn]. replace (N.to_nat (0 + N.of_nat j)) with j by lia. split; [assumption|].
    destruct (T j Hj) as (ty & Hty). exists ty. split; [assumption|].
    erewrite nth_error_nth in Hn by exact Hty. apply Bool.negb_true_iff in Hn. assumption.
  - intros [Hk (ty & Hty & Hn)]. split; [exists (N.to_nat k); split; [lia|assumption]|].
    erewrite nth_error_nth by exact Hty. rewrite Hn. reflexivity.
Qed.

(** When different centres have different keys, the tetrahedra's last two vertices are the centres. *)
Theorem C29_exact_centres : (forall p q, is_centre m ccenter fcenter p -> is_centre m ccenter fcenter q -> key p = key q -> p = q) ->
  exists blocks, t_cells t = List.concat blocks /\ length blocks = length (m_cells m) /\
  forall c b ty, nth_error blocks (N.to_nat c) = Some b -> nth_error types (N.to_nat c) = Some ty -> native3 ty = false ->
    exists fs is, ring m c fs /\ incidences m fs is /\ length b = length is /\
      forall i f e x, nth_error is i = Some (f, e) -> nth_error b i = Some x ->
        exists a b fi ci, x = ([a; b; fi; ci], TETRA) /\
          nth_error (nth 0 (m_mid m) []) (N.to_nat e) = Some [a; b] /\
          nth_error (m_verts m ++ t_verts t) (N.to_nat fi) = Some (fcenter f) /\
          nth_error (m_verts m ++ t_verts t) (N.to_nat ci) = Some (ccenter c).
Proof.
  intros KI. destruct C29_tessellation as (blocks & L & Ec & HB & _ & _ & _ & AC). exists blocks. splits; auto.
  intros c b ty Hb Hty Hn. destruct (HB c b Hb) as (ty' & Hty' & HW). assert (ty' = ty) by congruence. subst ty'.
  unfold written_for in HW. rewrite Hn in HW. destruct HW as (fs & is & R & I & F). exists fs, is.
  apply Forall2_nth in F as [LF F]. splits; auto. intros i f e x Hi Hx.
  destruct (F i _ _ Hi Hx) as (a & b' & fi & ci & p & q & -> & He & Hp & Kp & Hq & Kq & Lf & Lc). cbn [fst snd] in *.
  assert (Cp : is_centre m ccenter fcenter p) by (rewrite nth_error_app2 in Hp by exact Lf; apply AC; eapply nth_error_In; exact Hp).
  assert (Cq : is_centre m ccenter fcenter q) by (rewrite nth_error_app2 in Hq by exact Lc; apply AC; eapply nth_error_In; exact Hq).
  assert (Cf : is_centre m ccenter fcenter (fcenter f)).
  { right. exists f. split; [|reflexivity]. clear -I Hi. revert i Hi. induction I as [|f' fs' fc is' Hf I IH]; intros i Hi; [destruct i; discriminate|].
    apply nth_error_In, in_app_iff in Hi as [Hi|Hi]; [|apply In_nth_error in Hi as [j Hj]; eapply IH; exact Hj].
    apply in_map_iff in Hi as (e' & Ee & _). injection Ee as <- _. assert (N.to_nat f' < length (m_faces m)) by (apply nth_error_Some; congruence). lia. }
  assert (Cc : is_centre m ccenter fcenter (ccenter c)).
  { left. exists c. split; [|reflexivity]. assert (N.to_nat c < length blocks) by (apply nth_error_Some; congruence). lia. }
  apply KI in Kp; try assumption. apply KI in Kq; try assumption. subst. exists a, b', fi, ci. auto.
Qed.
End C29.
Print Assumptions C29_tessellation.
Print Assumptions C29_exact_centres.

(** The written text is a well formed file with these cells; every emitted cell has a VTK type code. *)
Theorem C29_text {C} ori ccenter fcenter key (m : Mesh (C * C * C)) types t :
  wf_mesh m -> m_dim m = 3 -> indexMesh3 ori ccenter fcenter key m types = Ok t ->
  exists codes, writeVTK3 ori ccenter fcenter key m types =
      Ok (vtk_body (mkVtk (m_verts m ++ t_verts t) (map fst (t_cells t)) codes)) /\
    Forall2 (fun x n => vtkCode3 (snd x) = Some n) (t_cells t) codes.
Proof.
  intros W D E.
  assert (H : Forall (fun x => exists n, vtkCode3 (snd x) = Some n) (t_cells t)).
  { destruct (C29_tessellation ori ccenter fcenter key m types t W D E) as (blocks & _ & -> & HB & _).
    apply Forall_concat. apply Forall_forall. intros b Hb. apply In_nth_error in Hb as [i Hi].
    destruct (HB (N.of_nat i) b) as (ty & _ & HW); [rewrite Nat2N.id; assumption|].
    unfold written_for in HW. destruct (native3 ty) eqn:Hn.
    - destruct HW as (vs & ->). constructor; [|constructor]. destruct ty; try discriminate; simpl; eauto.
    - destruct HW as (fs & is & _ & _ & F). clear -F. induction F as [|fe x is b T F IH]; [constructor|].
      constructor; [|assumption]. destruct T as (? & ? & ? & ? & ? & ? & -> & _). simpl. eauto. }
  assert (H' : exists codes, Forall2 (fun x n => vtkCode3 (snd x) = Some n) (t_cells t) codes).
  { clear -H. induction H as [|x l [n Hx] _ [codes IH]]; [exists []; constructor|]. exists (n :: codes). constructor; assumption. }
  destruct H' as (codes & F). exists codes. split; [|assumption].
  unfold writeVTK3. rewrite E. cbn [bind]. unfold emitVTK3.
  assert (F' : Forall2 (fun ty n => vtkCode3 ty = Some n) (map snd (t_cells t)) codes) by (rewrite Forall2_map_l; exact F).
  pose proof (Forall2_length' _ _ _ F) as LC.
  rewrite (emitTypes_ok vtkCode3 _ codes F'). cbn [bind]. f_equal.
  unfold vtk_body. cbn [vf_pts vf_cells vf_types]. unfold points_section, cells_section, types_section, vnum.
  rewrite app_length, map_length, <- LC. unfold emitRows, row, countWritten, vnum. rewrite <- !app_assoc. reflexivity.
Qed.
Print Assumptions C29_text.

(** Indexing succeeds whenever no cell has a native type. *)
Theorem C29_total {V} ori ccenter fcenter key (m : Mesh V) types :
  wf_mesh m -> m_dim m = 3 ->
  (forall c, (c < N.of_nat (length (m_cells m)))%N -> exists ty, nth_error types (N.to_nat c) = Some ty /\ native3 ty = false) ->
  exists t, indexMesh3 ori ccenter fcenter key m types = Ok t.
Proof. intros W D. apply indexMesh3_total; assumption. Qed.
Print Assumptions C29_total.

(** The two prisms, the first written natively as a wedge, the second as a polyhedron: 18 tetrahedra. *)
Local Open Scope N_scope.
Definition zkey (p : Z * Z * Z) : string :=
  (to_string (Z.to_N (fst (fst p))) ++ ";" ++ to_string (Z.to_N (snd (fst p))) ++ ";" ++ to_string (Z.to_N (snd p)))%string.
Definition prismOri : list (list bool) := map (fun f => map (fun _ => true) (f_subs f)) (m_faces twoPrisms).
Example C29_instance : wf_mesh twoPrisms /\ m_dim twoPrisms = 3%nat /\
  exists t, indexMesh3 prismOri (fun c => (100 + Z.of_N c, 0, 0)%Z) (fun f => (200 + Z.of_N f, 0, 0)%Z) zkey twoPrisms [WEDGE; POLYHEDRON] = Ok t /\
    length (t_cells t) = 19%nat /\ nth_error (t_cells t) 0 = Some ([1;0;2;5;4;6], WEDGE) /\
    nth_error (t_cells t) 1 = Some ([2;1;9;8], TETRA) /\ length (t_verts t) = 6%nat /\
    map snd (t_back t) = repeat 1 18.
Proof.
  split; [exact twoPrisms_wf|]. split; [reflexivity|].
  eexists. split; [vm_compute; reflexivity|]. repeat split; vm_compute; reflexivity.
Qed.
(** Points whose keys agree (to_string prints six decimals) are merged: here the keys forget the last
    digit, and all centres with the same key become one appended vertex, so the tetrahedra are not those of
    the cell. *)
Example C29_merged_centres :
  exists t, indexMesh3 prismOri (fun c => (100 + Z.of_N c, 0, 0)%Z) (fun f => (200 + Z.of_N f, 0, 0)%Z)
     (fun p => zkey (fst (fst p) / 10, 0, 0)%Z) twoPrisms [POLYHEDRON; POLYHEDRON] = Ok t /\ length (t_verts t) = 2%nat.
Proof. eexists. split; [vm_compute; reflexivity|]. reflexivity. Qed.

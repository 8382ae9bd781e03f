(** C19 - C23: the FPMA reader and writer. *)
From Coq Require Import Permutation.
From Verif Require Import P_Base M_Conn S_Conn P_Conn M_Mesh M_Apply S_Mesh P_Apply Ex_Mesh
  M_FPMA S_FPMA P_Poly P_FPMA P_FPMAWrite P_RoundTrip.
Local Open Scope list_scope.

(** C19. Loading a file into an empty mesh keeps the vertices and every polygon: face [i] lists the
    edges of its polygon in order, vertex pairs are joined by one edge only, no edge is superfluous.
    [rest] is whatever follows in the file. *)
Theorem C19_fpma_faces : forall C reserve (F : fpma_file C) rest,
  file_ok F -> (reserve = 0 \/ forall p, In p (ff_polys F) -> length p <= reserve) ->
  exists m, loadFPMA reserve (layout F ++ rest) (emptyMesh 3) = Ok m /\
    m_verts m = ff_verts F /\
    Forall2 (fun f poly => sides_of (mesh_edges m) (f_subs f) poly) (m_faces m) (ff_polys F) /\
    (forall e e' a b, joins (mesh_edges m) e a b -> joins (mesh_edges m) e' a b -> e = e') /\
    (forall i, i < length (mesh_edges m) -> exists f, In f (m_faces m) /\ In (N.of_nat i) (f_subs f)).
Proof.
  intros C reserve F rest FO HR.
  destruct (load_spec reserve F rest FO HR) as (m & edges & E & D & Ev & Em & _ & F2 & Un & Cov & _).
  exists m. unfold mesh_edges. rewrite Em. cbn [nth]. auto.
Qed.
Print Assumptions C19_fpma_faces.

(** A polygon with more sides than the reserved storage makes the reader throw. *)
Lemma add_edges_throw reserve pairs : forall edges em subs,
  reserve <> 0 -> length subs <= reserve -> reserve < length subs + length pairs ->
  add_edges reserve pairs edges em subs = Throw.
Proof.
  induction pairs as [|[a b] pairs IH]; intros edges em subs Hr Hs HL; simpl in HL; [lia|].
  simpl. destruct (get_edge edges em a b) as [[e edges1] em1]. unfold add_sub.
  replace (reserve =? 0) with false by (symmetry; apply Nat.eqb_neq; assumption). cbn [orb].
  destruct (Nat.ltb_spec (length subs) reserve); cbn [bind]; [|reflexivity].
  apply IH; rewrite ?app_length; simpl; lia.
Qed.

Theorem C19_overflow_throws : forall C reserve (F : fpma_file C) rest p,
  reserve <> 0 -> In p (ff_polys F) -> reserve < length p ->
  loadFPMA reserve (layout F ++ rest) (emptyMesh 3) = Throw.
Proof.
  intros C reserve F rest p Hr Hp Hl. unfold loadFPMA, layout.
  rewrite <- !app_assoc. unfold loadVertices. cbn [app]. unfold num at 1. cbn [readN bind fst snd].
  rewrite Nat2N.id, readMany_points. cbn [bind fst snd].
  unfold loadFaces. unfold num at 1. cbn [readN bind fst snd app].
  cbn [emptyMesh m_faces with_verts m_mid edges_of nth repeat Nat.sub].
  rewrite Nat2N.id. unfold vresize. rewrite firstn_nil. cbn [length app]. rewrite Nat.sub_0_r.
  assert (G : forall polys edges em (tl : list (tok C)), In p polys ->
    load_faces_loop reserve (repeat newFace (length polys)) (flat_map counted polys ++ tl) edges em = @Throw _).
  { induction polys as [|q polys IH]; intros edges em tl Hq; [destruct Hq|].
    cbn [length repeat load_faces_loop flat_map counted app]. unfold num. cbn [readN bind fst snd].
    rewrite <- app_assoc, Nat2N.id, readMany_nums. cbn [bind fst snd].
    destruct Hq as [->|Hq].
    - rewrite add_edges_throw; [reflexivity|assumption|simpl; lia|].
      rewrite cyc_pairs_length. simpl. assumption.
    - destruct (add_edges reserve (cyc_pairs q) edges em (f_subs newFace)) as [[[e1 em1] s1]| | |] eqn:E;
        cbn [bind].
      + rewrite IH by assumption. reflexivity.
      + reflexivity.
      + exfalso. clear - E. revert E. generalize (f_subs newFace) as subs. revert edges em.
        induction (cyc_pairs q) as [|[a b] l IH]; intros edges em subs E; simpl in E; [discriminate|].
        destruct (get_edge edges em a b) as [[e edges1] em1]. unfold add_sub in E.
        destruct (_ || _); cbn [bind] in E; [eauto|discriminate].
      + exfalso. clear - E. revert E. generalize (f_subs newFace) as subs. revert edges em.
        induction (cyc_pairs q) as [|[a b] l IH]; intros edges em subs E; simpl in E; [discriminate|].
        destruct (get_edge edges em a b) as [[e edges1] em1]. unfold add_sub in E.
        destruct (_ || _); cbn [bind] in E; [eauto|discriminate]. }
  rewrite G by assumption. reflexivity.
Qed.
Print Assumptions C19_overflow_throws.

(** C20. Walking the boundary of a loaded cell yields exactly the faces listed for it, in file order;
    the left cell of a face is the first cell listing it, the right cell the second. *)
Theorem C20_fpma_cells : forall C reserve (F : fpma_file C) rest,
  file_ok F -> (reserve = 0 \/ forall p, In p (ff_polys F) -> length p <= reserve) ->
  exists m, loadFPMA reserve (layout F ++ rest) (emptyMesh 3) = Ok m /\
    length (m_cells m) = length (ff_cells F) /\
    (forall c fs, nth_error (ff_cells F) (N.to_nat c) = Some fs -> ring m c fs) /\
    (forall i f, nth_error (m_faces m) i = Some f ->
       cellLeft (bc (f_conn f)) = nth 0 (listing (ff_cells F) (N.of_nat i)) INVALID /\
       cellRight (bc (f_conn f)) = nth 1 (listing (ff_cells F) (N.of_nat i)) INVALID).
Proof.
  intros C reserve F rest FO HR.
  destruct (load_spec reserve F rest FO HR)
    as (m & edges & E & D & Ev & Em & _ & F2 & Un & Cov & Lc & Ri & LR).
  exists m. auto.
Qed.
Print Assumptions C20_fpma_cells.

(** If moreover the polygons are proper, the loaded mesh is well formed: all the results on
    traversals, connections and colouring apply to it. *)
Theorem C20_fpma_wf : forall C reserve (F : fpma_file C) rest,
  file_ok F ->
  (forall p, In p (ff_polys F) ->
     polygon p /\ forall v, In v p -> (v < N.of_nat (length (ff_verts F)))%N) ->
  (reserve = 0 \/ forall p, In p (ff_polys F) -> length p <= reserve) ->
  exists m, loadFPMA reserve (layout F ++ rest) (emptyMesh 3) = Ok m /\ wf_mesh m.
Proof. intros C reserve F rest FO FP HR. apply load_wf; [constructor; assumption|assumption]. Qed.
Print Assumptions C20_fpma_wf.

(** C21. If the edges of a face (in any order, with any orientation) bound a polygon, the vertices
    written for the face are that polygon, starting with vertex B and vertex A of the first edge. *)
Theorem C21_fpma_face_polygon : forall edges es vs,
  bounds edges es vs ->
  exists vs', indexFace edges es = Ok vs' /\ same_polygon vs vs' /\
    exists e0 a b, nth_error es 0 = Some e0 /\ nth_error edges (N.to_nat e0) = Some [a; b] /\
      nth_error vs' 0 = Some b /\ nth_error vs' 1 = Some a.
Proof.
  intros edges es vs H. destruct (indexFace_spec edges es vs H) as (vs' & e0 & a & b & H1 & H2 & H3).
  exists vs'. eauto 6.
Qed.
Print Assumptions C21_fpma_face_polygon.

(** C22. Writing a well formed mesh whose faces are polygons and reading the file into an empty mesh
    reproduces vertices, cells with their faces in order, and the polygon of every face. *)
Theorem C22_fpma_roundtrip : forall C (m : Mesh (C * C * C)) reserve,
  wf_mesh m -> m_dim m = 3 ->
  (forall f, In f (m_faces m) -> exists vs, bounds (mesh_edges m) (f_subs f) vs) ->
  (N.of_nat (length (m_faces m)) <= INVALID)%N -> (N.of_nat (length (m_cells m)) <= INVALID)%N ->
  (reserve = 0 \/ forall f, In f (m_faces m) -> length (f_subs f) <= reserve) ->
  exists ts m', writeFPMA m = Ok ts /\ loadFPMA reserve ts (emptyMesh 3) = Ok m' /\
    wf_mesh m' /\ m_dim m' = 3 /\ m_verts m' = m_verts m /\
    length (m_faces m') = length (m_faces m) /\ length (m_cells m') = length (m_cells m) /\
    (forall c fs, ring m' c fs <-> ring m c fs) /\
    (forall i f f' vs, nth_error (m_faces m) i = Some f -> nth_error (m_faces m') i = Some f' ->
       (bounds (mesh_edges m') (f_subs f') vs <-> bounds (mesh_edges m) (f_subs f) vs)).
Proof. intros C m reserve W D B SF SC HR. apply roundtrip; assumption. Qed.
Print Assumptions C22_fpma_roundtrip.

(** C23, refuted for the FPMA reader. Loading does not start from an empty mesh: all old edges stay
    in place, whatever file is read. *)
Theorem C23_fpma_keeps_old_edges : forall C reserve ts (m m' : Mesh (C * C * C)),
  loadFPMA reserve ts m = Ok m' -> exists new, mesh_edges m' = mesh_edges m ++ new.
Proof.
  intros C reserve ts m m' H. unfold loadFPMA in H.
  apply bind_ok in H as ([m1 t1] & H1 & H). apply bind_ok in H as ([m2 t2] & H2 & H).
  apply bind_ok in H as ([m3 t3] & H3 & H). cbn [fst snd] in *. injection H as <-.
  assert (E1 : mesh_edges m1 = mesh_edges m).
  { unfold loadVertices in H1. apply bind_ok in H1 as (n & _ & H1).
    apply bind_ok in H1 as (vs & _ & H1). inv H1. reflexivity. }
  assert (E3 : mesh_edges m3 = mesh_edges m2).
  { unfold loadCells in H3. apply bind_ok in H3 as (n & _ & H3).
    apply bind_ok in H3 as ([[a b] c] & _ & H3). inv H3. reflexivity. }
  rewrite E3, <- E1. clear - H2.
  unfold loadFaces in H2. apply bind_ok in H2 as (n & _ & H2).
  apply bind_ok in H2 as ([[ed fs] t] & H2 & H). inv H. unfold mesh_edges at 1. cbn [m_mid with_faces nth].
  change (edges_of m1) with (mesh_edges m1) in H2. revert H2.
  assert (Add : forall pairs edges em subs e' em' s',
     add_edges reserve pairs edges em subs = Ok (e', em', s') -> exists x, e' = edges ++ x).
  { induction pairs as [|[a b] pairs IH]; intros edges em subs e' em' s' H; simpl in H.
    - inv H. exists []. rewrite app_nil_r. reflexivity.
    - destruct (get_edge edges em a b) as [[e e1] em1] eqn:G.
      apply bind_ok in H as (s1 & _ & H). apply IH in H as [x ->].
      unfold get_edge in G. destruct (map_find _ em); inv G; [exists x; reflexivity|].
      rewrite <- app_assoc. eauto. }
  generalize (mesh_edges m1) as edges, (@nil (String.string * N)) as em, (snd n) as tt.
  revert fs. generalize (vresize (N.to_nat (fst n)) newFace (m_faces m1)) as todo.
  induction todo as [|f todo IH]; intros fs edges em tt H; simpl in H.
  - inv H. exists []. rewrite app_nil_r. reflexivity.
  - apply bind_ok in H as (k & _ & H). apply bind_ok in H as (vs & _ & H).
    apply bind_ok in H as ([[e1 em1] s1] & Ha & H).
    apply bind_ok in H as ([[e2 f2] t5] & H & H'). inv H'.
    apply Add in Ha as [x ->]. apply IH in H as [y ->]. rewrite <- app_assoc. eauto.
Qed.
Print Assumptions C23_fpma_keeps_old_edges.

(** * Instances *)
Local Open Scope N_scope.

(** Two tetrahedra glued along the face 1 2 3. *)
Definition twoTets : fpma_file Z :=
  mkFile [((0,0,0));((1,0,0));((0,1,0));((0,0,1));((1,1,1))]%Z
         [[0;1;2]; [0;3;1]; [0;2;3]; [1;2;3]; [1;4;2]; [2;4;3]; [3;4;1]]
         [[0;1;2;3]; [3;4;5;6]].

Lemma twoTets_ok : file_ok twoTets.
Proof.
  constructor; cbn [twoTets ff_polys ff_cells length].
  - unfold INVALID. lia.
  - unfold INVALID. lia.
  - intros fs [<-|[<-|[]]]; (split; [discriminate|]);
      (split; [apply nodupb_sound; reflexivity|]);
      intros f Hf; simpl in Hf; repeat (destruct Hf as [<-|Hf]; [reflexivity|]); destruct Hf.
  - intros f. unfold listing. cbn [length seqN seq map filter].
    destruct (existsb _ _); destruct (existsb _ _); simpl; lia.
Qed.

Example C19_C20_instance : file_ok twoTets /\
  exists m, loadFPMA 0 (layout twoTets) (emptyMesh 3) = Ok m /\
    length (mesh_edges m) = 9%nat /\ ring m 1 [3;4;5;6].
Proof.
  split; [exact twoTets_ok|].
  destruct (loadFPMA 0 (layout twoTets) (emptyMesh 3)) as [m| | |] eqn:E; [|vm_compute in E; discriminate..].
  exists m. vm_compute in E. injection E as <-. split; [reflexivity|]. split; [reflexivity|].
  apply ring_iff. vm_compute. reflexivity.
Qed.

(** A checker for [bounds]. *)
Definition joinsb (edges : list (list N)) (e : N) (ab : N * N) : bool :=
  match nth_error edges (N.to_nat e) with
  | Some [x; y] => ((x =? fst ab) && (y =? snd ab)) || ((x =? snd ab) && (y =? fst ab))
  | _ => false
  end.
Fixpoint forall2b (edges : list (list N)) (es : list N) (ps : list (N * N)) : bool :=
  match es, ps with
  | [], [] => true
  | e :: es, p :: ps => joinsb edges e p && forall2b edges es ps
  | _, _ => false
  end.
Definition bounds_check (edges : list (list N)) (es : list N) : bool :=
  match indexFace edges es with
  | Ok vs =>
      let es' := map (fun p => match filter (fun e => joinsb edges e p) es with e :: _ => e | [] => INVALID end)
                     (cyc_pairs vs) in
      nodupb vs && (3 <=? length vs)%nat && forall2b edges es' (cyc_pairs vs) && nodupb es' &&
      forallb (fun e => existsb (N.eqb e) es) es' && (length es =? length es')%nat
  | _ => false
  end.

Lemma joinsb_sound edges e ab : joinsb edges e ab = true -> joins edges e (fst ab) (snd ab).
Proof.
  unfold joinsb, joins. destruct (nth_error edges (N.to_nat e)) as [[|x [|y [|]]]|]; try discriminate.
  intros H. apply orb_true_iff in H as [H|H]; apply andb_true_iff in H as [H1 H2];
    apply N.eqb_eq in H1, H2; subst; auto.
Qed.

Lemma bounds_check_sound edges es : bounds_check edges es = true -> exists vs, bounds edges es vs.
Proof.
  unfold bounds_check. destruct (indexFace edges es) as [vs| | |]; try discriminate.
  rewrite !andb_true_iff. intros [[[[[H1 H2] H3] H4] H5] H6].
  exists vs. split; [split; [apply nodupb_sound; assumption|apply Nat.leb_le; assumption]|].
  eexists. split; [|split; [apply nodupb_sound; exact H4|]].
  - apply Permutation_sym. apply NoDup_Permutation_bis.
    + apply nodupb_sound; assumption.
    + apply Nat.eqb_eq in H6. rewrite H6. apply Nat.le_refl.
    + intros e He. rewrite forallb_forall in H5. apply existsb_Neqb. apply H5. assumption.
  - apply sides_of_iff. clear - H3. revert H3. generalize (cyc_pairs vs) as ps.
    match goal with |- forall ps, forall2b _ (map ?g _) _ = _ -> _ => generalize g end.
    intros g ps. generalize (map g ps) as l. intros l. revert ps.
    induction l as [|e l IH]; intros [|p ps] H; simpl in H; try discriminate; constructor.
    + apply andb_true_iff in H as [H _]. apply joinsb_sound. assumption.
    + apply andb_true_iff in H as [_ H]. apply IH. assumption.
Qed.

Example C22_instance :
  wf_mesh twoPrisms /\ m_dim twoPrisms = 3%nat /\
  (forall f, In f (m_faces twoPrisms) -> exists vs, bounds (mesh_edges twoPrisms) (f_subs f) vs) /\
  exists ts m', writeFPMA twoPrisms = Ok ts /\ loadFPMA 4 ts (emptyMesh 3) = Ok m' /\
    length (m_faces m') = 9%nat /\ length (mesh_edges m') = 14%nat.
Proof.
  split; [apply twoPrisms_wf|]. split; [reflexivity|]. split.
  - intros f Hf. apply bounds_check_sound.
    assert (H : forallb (fun f => bounds_check (mesh_edges twoPrisms) (f_subs f)) (m_faces twoPrisms) = true)
      by (vm_compute; reflexivity).
    rewrite forallb_forall in H. apply H. assumption.
  - destruct (writeFPMA twoPrisms) as [ts| | |] eqn:E; [|vm_compute in E; discriminate..].
    exists ts. vm_compute in E. injection E as <-.
    eexists. split; [reflexivity|]. split; [vm_compute; reflexivity|]. split; reflexivity.
Qed.

(** C23: loading a file into a mesh that already holds it doubles the edges of every face. *)
Example C23_fpma_reload_history :
  exists m m', loadFPMA 0 (layout twoTets) (emptyMesh 3) = Ok m /\
    loadFPMA 0 (layout twoTets) m = Ok m' /\
    length (mesh_edges m) = 9%nat /\ length (mesh_edges m') = 18%nat /\
    map (fun f => length (f_subs f)) (m_faces m) = repeat 3%nat 7 /\
    map (fun f => length (f_subs f)) (m_faces m') = repeat 6%nat 7.
Proof.
  eexists; eexists. split; [vm_compute; reflexivity|]. split; [vm_compute; reflexivity|].
  vm_compute. auto.
Qed.

(** C112: an FPMA file read and written again is never the same file. *)
From Coq Require Import Permutation.
From Verif Require Import P_Base M_Conn S_Conn P_Conn M_Mesh M_Apply S_Mesh P_Apply Ex_Mesh
  M_FPMA S_FPMA P_Poly P_FPMA P_FPMAWrite P_RoundTrip T_FPMA P_Bnd T_Rewrite.
Local Open Scope nat_scope.
Local Open Scope list_scope.

(** The edges made for the first polygon come first; the first of them runs in the direction of its first side. *)
Lemma add_edges_ext reserve pairs : forall edges em subs e' em' s',
  add_edges reserve pairs edges em subs = Ok (e', em', s') -> exists x, e' = edges ++ x.
Proof.
  induction pairs as [|[a b] pairs IH]; intros edges em subs e' em' s' H; simpl in H.
  - inv H. exists []. rewrite app_nil_r. reflexivity.
  - destruct (get_edge edges em a b) as [[e e1] em1] eqn:G.
    apply bind_ok in H as (s1 & _ & H). apply IH in H as [x ->].
    unfold get_edge in G. destruct (map_find _ em); inv G; [exists x; reflexivity|].
    rewrite <- app_assoc. eauto.
Qed.
Lemma load_faces_ext {C} reserve todo : forall (ts : list (tok C)) edges em e' fs t,
  load_faces_loop reserve todo ts edges em = Ok (e', fs, t) -> exists x, e' = edges ++ x.
Proof.
  induction todo as [|f todo IH]; intros tt edges em e' fs t H; simpl in H.
  - inv H. exists []. rewrite app_nil_r. reflexivity.
  - apply bind_ok in H as (k & _ & H). apply bind_ok in H as (vs & _ & H).
    apply bind_ok in H as ([[e1 em1] s1] & Ha & H).
    apply bind_ok in H as ([[e2 f2] t5] & H & H'). inv H'.
    apply add_edges_ext in Ha as [x ->]. apply IH in H as [y ->]. rewrite <- app_assoc. eauto.
Qed.
Lemma first_edge {C} reserve (F : fpma_file C) rest m v0 v1 r ps :
  ff_polys F = (v0 :: v1 :: r) :: ps -> loadFPMA reserve (layout F ++ rest) (emptyMesh 3) = Ok m -> nth_error (mesh_edges m) 0 = Some [v0; v1].
Proof.
  intros EP H. unfold loadFPMA, layout in H. rewrite <- !app_assoc in H. unfold loadVertices in H. cbn [app] in H. unfold num at 1 in H. cbn [readN bind fst snd] in H.
  rewrite Nat2N.id, readMany_points in H. cbn [bind fst snd] in H.
  unfold loadFaces in H. unfold num at 1 in H. cbn [readN bind fst snd app] in H.
  cbn [emptyMesh m_faces with_verts m_mid edges_of nth repeat Nat.sub] in H.
  rewrite Nat2N.id in H. unfold vresize at 1 in H. rewrite firstn_nil in H. cbn [length app] in H. rewrite Nat.sub_0_r in H.
  unfold edges_of in H. cbn [m_mid emptyMesh with_verts repeat Nat.sub nth] in H.
  rewrite EP in H. cbn [length repeat load_faces_loop flat_map counted app] in H. unfold num at 1 in H. cbn [readN bind fst snd] in H.
  apply bind_ok in H as ([m2 t2] & H & H3). apply bind_ok in H3 as ([m3 t3] & H3 & H4). injection H4 as <-.
  assert (E3 : mesh_edges m3 = mesh_edges m2).
  { unfold loadCells in H3. apply bind_ok in H3 as (n & _ & H3). apply bind_ok in H3 as ([[a b] c] & _ & H3). inv H3. reflexivity. }
  cbn [fst]. rewrite E3. apply bind_ok in H as ([[ed fs] t] & H & H'). injection H' as <- <-. unfold mesh_edges. cbn [m_mid with_faces nth].
  rewrite <- app_assoc in H. 
  rewrite Nat2N.id in H. rewrite (readMany_nums (v0 :: v1 :: r)) in H. cbn [bind fst snd] in H.
  apply bind_ok in H as ([[e1 em1] s1] & Ha & H). apply bind_ok in H as ([[e2 f2] t5] & H & H'). injection H' as <- <- <-.
  apply load_faces_ext in H as [y ->]. cbn [cyc_pairs combine app add_edges get_edge map_find f_subs newFace] in Ha.
  apply bind_ok in Ha as (s2 & _ & Ha). apply add_edges_ext in Ha as [x ->]. reflexivity.
Qed.

(** A polygon whose first two vertices come in the other order is the polygon read backwards. *)
Lemma same_rev A X : same_polygon A X -> same_polygon (rev A) X.
Proof.
  intros (l1 & l2 & -> & H). exists (rev l2), (rev l1). rewrite <- !rev_app_distr. split; [reflexivity|].
  destruct H as [->| ->].
  - right. rewrite rev_involutive. f_equal.
  - left. reflexivity.
Qed.
Lemma turned_head v0 v1 r r' : polygon (v0 :: v1 :: r) -> same_polygon (v0 :: v1 :: r) (v1 :: v0 :: r') -> r' = rev r.
Proof.
  intros P SP. apply (same_head v1 v0 (rev r) r').
  - apply (polygon_perm (v0 :: v1 :: r)); [|exact P]. rewrite perm_swap. do 2 apply perm_skip. apply Permutation_rev.
  - replace (v1 :: v0 :: rev r) with (rev (r ++ [v0; v1])) by (rewrite rev_app_distr; reflexivity).
    apply same_rev, rot_same. exact SP.
Qed.

Theorem C112_fpma_turned : forall C reserve (F : fpma_file C) rest v0 v1 r ps,
  file_wf F -> (reserve = 0 \/ forall p, In p (ff_polys F) -> length p <= reserve) -> ff_polys F = (v0 :: v1 :: r) :: ps ->
  exists m qs, loadFPMA reserve (layout F ++ rest) (emptyMesh 3) = Ok m /\
    (* the first polygon is turned, the others may be; the vertices and the rows of the cells are the same *)
    writeFPMA m = Ok (layout (mkFile (ff_verts F) ((v1 :: v0 :: rev r) :: qs) (ff_cells F)) ++ [Tn 0%N]) /\
    Forall2 same_polygon ps qs /\ file_wf (mkFile (ff_verts F) ((v1 :: v0 :: rev r) :: qs) (ff_cells F)) /\
    (* so it is another text, whatever follows *)
    (forall after, layout (mkFile (ff_verts F) ((v1 :: v0 :: rev r) :: qs) (ff_cells F)) ++ [Tn 0%N] <> layout F ++ after).
Proof.
  intros C reserve F rest v0 v1 r ps FW HR EP. pose proof FW as [FO FP].
  destruct (load_wf reserve F rest FW HR) as (m & E & W).
  destruct (load_spec reserve F rest FO HR) as (m2 & edges & E2 & D & Ev & Em & _ & F2 & Un & Cov & Lc & Ri & _).
  assert (m2 = m) by congruence. subst m2.
  assert (EE : mesh_edges m = edges) by (unfold mesh_edges; rewrite Em; reflexivity).
  pose proof (first_edge reserve F rest m v0 v1 r ps EP E) as E0. rewrite <- EE in *. clear edges EE Em.
  assert (Bd : Forall2 (fun f p => bounds (mesh_edges m) (f_subs f) p) (m_faces m) (ff_polys F)).
  { apply Forall2_nth. apply Forall2_nth in F2 as [L F2]. split; [exact L|]. intros i f p Hf Hp. pose proof (F2 i f p Hf Hp) as S.
    destruct (FP p (nth_error_In _ _ Hp)) as [P _]. split; [exact P|]. exists (f_subs f). split; [apply Permutation_refl|]. split; [eapply sides_NoDup; eassumption|exact S]. }
  assert (B : forall f, In f (m_faces m) -> exists vs, bounds (mesh_edges m) (f_subs f) vs).
  { intros f Hf. destruct (Forall2_In_l _ _ _ _ Bd Hf) as (p & _ & K). eauto. }
  assert (SF : (N.of_nat (length (m_faces m)) <= INVALID)%N) by (rewrite (Forall2_length' _ _ _ Bd); apply FO).
  assert (SC : (N.of_nat (length (m_cells m)) <= INVALID)%N) by (rewrite Lc; apply FO).
  destruct (faceVert_ex m B (m_faces m) (incl_refl _)) as (fv & E1 & HF).
  destruct (connections_original_rings m W D) as (cf & E3 & L3 & H3).
  assert (CF : cf = ff_cells F).
  { apply nth_error_ext. intros i. destruct (nth_error (ff_cells F) i) as [fs|] eqn:Ec.
    - rewrite <- (Nat2N.id i) in Ec. pose proof (Ri _ _ Ec) as R. rewrite <- (H3 _ _ R). reflexivity.
    - apply nth_error_None in Ec. apply nth_error_None. lia. }
  assert (Ew : writeFPMA m = Ok (layout (mkFile (m_verts m) fv cf) ++ [Tn 0%N])).
  { unfold writeFPMA, indexMeshFPMA, edges_of. unfold mesh_edges in E1. rewrite E1. cbn [bind].
    rewrite E3. cbn [bind fst snd]. unfold emitFPMA. pose proof (Forall2_length' _ _ _ HF) as LF.
    rewrite LF, mapM_rows. cbn [bind]. rewrite <- L3, mapM_rows. cbn [bind].
    unfold layout, num, counted, num. cbn [ff_verts ff_polys ff_cells]. f_equal. rewrite <- !app_assoc. cbn [app]. f_equal. f_equal.
    clear. induction (m_verts m) as [|[[x y] z] l IH]; simpl; [reflexivity|]. rewrite IH. reflexivity. }
  assert (FW' : file_wf (mkFile (m_verts m) fv cf)).
  { apply (written_file_ok m W D B SF SC fv cf HF L3). intros c fs R. apply H3. rewrite N2Nat.id. exact R. }
  assert (SP : Forall2 same_polygon (ff_polys F) fv).
  { apply mapM_ok in E1. apply Forall2_nth. apply Forall2_nth in E1 as [LE E1]. apply Forall2_nth in Bd as [LB Bd]. split; [congruence|]. intros i p q Hp Hq.
    destruct (nth_error (m_faces m) i) as [f|] eqn:Ef; [|apply nth_error_None in Ef; assert (i < length fv) by (apply nth_error_Some; congruence); lia].
    destruct (indexFace_spec _ _ _ (Bd i f p Ef Hp)) as (q' & _ & _ & _ & Eq & S & _). rewrite (E1 i f q Ef Hq) in Eq. injection Eq as <-. exact S. }
  rewrite EP in Bd, SP, F2. inversion SP as [|? q0 ? qs SP0 SPs]; subst fv. inversion Bd as [|f0 ? fr ? B0 _ Ef]; subst. rewrite <- Ef in E1, F2.
  assert (Q0 : q0 = v1 :: v0 :: rev r).
  { cbn [mapM] in E1. apply bind_ok in E1 as (q & Eq & E1). apply bind_ok in E1 as (qq & _ & E1). injection E1 as -> ->.
    destruct (indexFace_spec _ _ _ B0) as (q' & e0 & a & b & Eq' & _ & He & Hab & Hb & Ha). rewrite Eq in Eq'. injection Eq' as <-.
    inversion F2 as [|? ? ? ? S0 _]; subst. pose proof (proj1 B0) as P.
    assert (side (v0 :: v1 :: r) 0 v0 v1) as S1 by (destruct P as [_ L]; split; [reflexivity|]; cbn [length] in *; rewrite Nat.mod_small by lia; reflexivity).
    pose proof (proj2 S0 0 e0 v0 v1 He S1) as J. assert (e0 = 0%N) by (apply (Un e0 0%N v0 v1 J); left; exact E0). subst e0.
    change (N.to_nat 0) with 0 in Hab. rewrite E0 in Hab. injection Hab as <- <-.
    destruct q0 as [|x [|y q']]; [discriminate Hb|discriminate Ha|]. injection Hb as ->. injection Ha as ->.
    rewrite (turned_head v0 v1 r q' P SP0). reflexivity. }
  subst q0. rewrite Ev in *. exists m, qs. split; [exact E|]. split; [exact Ew|]. split; [exact SPs|]. split; [exact FW'|].
  intros after H. unfold layout in H. cbn [ff_verts ff_polys ff_cells] in H. rewrite EP, <- !app_assoc in H. apply app_inv_head in H.
  cbn [flat_map app] in H. unfold counted in H. cbn [map app] in H. injection H. intros. destruct (FP (v0 :: v1 :: r)) as [[ND _] _]; [rewrite EP; left; reflexivity|].
  inversion ND as [|? ? N0 _]; subst. apply N0. left. congruence.
Qed.
Print Assumptions C112_fpma_turned.

(** Read an FPMA file into a new mesh and write the mesh; [n] times. *)
Definition rewriteF {C} (reserve : nat) (ts : list (tok C)) : outcome (list (tok C)) := m <- loadFPMA reserve ts (emptyMesh 3) ;; writeFPMA m.
Fixpoint rewritesF {C} (reserve n : nat) (ts : list (tok C)) : outcome (list (tok C)) :=
  match n with 0 => Ok ts | S k => u <- rewritesF reserve k ts ;; rewriteF reserve u end.

(** Unlike a planar VTK file (C111), an FPMA file is another text after every rewriting: the first polygon keeps turning. *)
Theorem C112_fpma_never_settles : forall C reserve (F : fpma_file C) v0 v1 r ps,
  file_wf F -> (reserve = 0 \/ forall p, In p (ff_polys F) -> length p <= reserve) -> ff_polys F = (v0 :: v1 :: r) :: ps ->
  forall n, exists qs ts',
    let ts := layout (mkFile (ff_verts F) ((if Nat.even n then v0 :: v1 :: r else v1 :: v0 :: rev r) :: qs) (ff_cells F)) ++ [Tn 0%N] in
    rewritesF reserve n (layout F ++ [Tn 0%N]) = Ok ts /\ rewriteF reserve ts = Ok ts' /\ ts' <> ts.
Proof.
  intros C reserve F v0 v1 r ps FW HR EP n.
  set (row := fun n => if Nat.even n then v0 :: v1 :: r else v1 :: v0 :: rev r).
  assert (Step : forall n qs, file_wf (mkFile (ff_verts F) (row n :: qs) (ff_cells F)) -> (reserve = 0 \/ forall p, In p (row n :: qs) -> length p <= reserve) ->
    exists qs', rewriteF reserve (layout (mkFile (ff_verts F) (row n :: qs) (ff_cells F)) ++ [Tn 0%N]) = Ok (layout (mkFile (ff_verts F) (row (S n) :: qs') (ff_cells F)) ++ [Tn 0%N]) /\
      file_wf (mkFile (ff_verts F) (row (S n) :: qs') (ff_cells F)) /\ (reserve = 0 \/ forall p, In p (row (S n) :: qs') -> length p <= reserve) /\
      layout (mkFile (ff_verts F) (row (S n) :: qs') (ff_cells F)) ++ [Tn 0%N] <> layout (mkFile (ff_verts F) (row n :: qs) (ff_cells F)) ++ [Tn 0%N]).
  { clear n. intros n qs W R. assert (exists a b s, row n = a :: b :: s /\ row (S n) = b :: a :: rev s) as (a & b & s & Ea & Eb).
    { unfold row. rewrite Nat.even_succ, <- Nat.negb_even. destruct (Nat.even n); cbn [negb].
      - exists v0, v1, r. auto.
      - exists v1, v0, (rev r). rewrite rev_involutive. auto. }
    rewrite Eb. rewrite Ea in *.
    destruct (C112_fpma_turned C reserve (mkFile (ff_verts F) ((a :: b :: s) :: qs) (ff_cells F)) [Tn 0%N] a b s qs W R eq_refl) as (m & qs' & E & Ew & Sm & W' & Ne).
    cbn [ff_verts ff_cells] in *. exists qs'. split; [unfold rewriteF; rewrite E; exact Ew|]. split; [exact W'|]. split; [|apply Ne].
    destruct R as [R|R]; [left; exact R|right]. intros p [<-|Hp].
    - specialize (R _ (or_introl eq_refl)). cbn [length] in *. rewrite rev_length. exact R.
    - apply In_nth_error in Hp as [i Hi]. apply Forall2_nth in Sm as [L Sm]. destruct (nth_error qs i) as [q|] eqn:Eq.
      + rewrite <- (Permutation_length (same_polygon_perm _ _ (Sm _ _ _ Eq Hi))). apply R. right. eapply nth_error_In; exact Eq.
      + apply nth_error_None in Eq. assert (i < length qs') by (apply nth_error_Some; congruence). lia. }
  assert (All : forall n, exists qs, rewritesF reserve n (layout F ++ [Tn 0%N]) = Ok (layout (mkFile (ff_verts F) (row n :: qs) (ff_cells F)) ++ [Tn 0%N]) /\
    file_wf (mkFile (ff_verts F) (row n :: qs) (ff_cells F)) /\ (reserve = 0 \/ forall p, In p (row n :: qs) -> length p <= reserve)).
  { clear n. induction n as [|n (qs & E & W & R)].
    - exists ps. unfold row. cbn [Nat.even rewritesF]. rewrite <- EP. split; [destruct F; reflexivity|]. split; [destruct F; exact FW|exact HR].
    - destruct (Step n qs W R) as (qs' & Es & W' & R' & _). exists qs'. split; [cbn [rewritesF]; rewrite E; exact Es|auto]. }
  destruct (All n) as (qs & E & W & R). destruct (Step n qs W R) as (qs' & Es & _ & _ & Ne).
  exists qs. eexists. split; [exact E|]. split; [exact Es|exact Ne].
Qed.
Print Assumptions C112_fpma_never_settles.

(** * Instance: the two tetrahedra of C19; the first triangle 0 1 2 becomes 1 0 2 and comes back; from the second rewriting on two texts alternate. *)
Lemma twoTets_wf : file_wf twoTets.
Proof.
  split; [exact twoTets_ok|]. intros p Hp. cbn [twoTets ff_polys] in Hp.
  repeat (destruct Hp as [<-|Hp]; [split; [split; [apply nodupb_sound; reflexivity|simpl; lia]|intros v Hv; simpl in Hv; repeat (destruct Hv as [<-|Hv]; [reflexivity|]); destruct Hv]|]).
  destruct Hp.
Qed.
Example C112_instance : file_wf twoTets /\ exists m qs, loadFPMA 0 (layout twoTets ++ [Tn 0%N]) (emptyMesh 3) = Ok m /\
  writeFPMA m = Ok (layout (mkFile (ff_verts twoTets) ([1;0;2]%N :: qs) (ff_cells twoTets)) ++ [Tn 0%N]) /\
  rewritesF 0 2 (layout twoTets ++ [Tn 0%N]) <> rewritesF 0 3 (layout twoTets ++ [Tn 0%N]) /\
  rewritesF 0 4 (layout twoTets ++ [Tn 0%N]) = rewritesF 0 2 (layout twoTets ++ [Tn 0%N]).
Proof.
  split; [exact twoTets_wf|].
  destruct (C112_fpma_turned Z 0 twoTets [Tn 0%N] 0%N 1%N [2%N] _ twoTets_wf (or_introl eq_refl) eq_refl) as (m & qs & E & Ew & _).
  exists m, qs. split; [exact E|]. split; [exact Ew|]. split; vm_compute; [discriminate|reflexivity].
Qed.

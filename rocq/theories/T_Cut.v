(** C82: files cut short. *)
From Coq Require Import String Ascii QArith Permutation.
From Verif Require Import Base P_Base M_Conn S_Conn M_Mesh M_Connections S_Mesh M_Text M_Print M_Stream P_Stream S_Stream P_Stream2
  M_FPMA M_FileText S_FileText S_FPMA P_FPMA P_RoundTrip P_FileText P_FPMAText P_Cut P_Apply Ex_Mesh T_FPMA T_FileText.
Local Open Scope nat_scope.
Local Open Scope list_scope.

(** * FPMA *)
Section Rest.
Context {C : Type}.
Implicit Type rest : list (tok C).
Lemma faces_rest reserve polys : forall todo e em rest e' fs t, length todo = length polys ->
  load_faces_loop reserve todo (flat_map counted polys ++ rest) e em = Ok (e', fs, t) -> t = rest.
Proof.
  induction polys as [|l polys IH]; intros [|f todo] e em rest e' fs t L H; try discriminate L.
  - injection H as _ _ <-. reflexivity.
  - cbn [flat_map load_faces_loop] in H. unfold counted at 1, num in H. rewrite <- app_assoc in H. cbn [app readN bind fst snd] in H. rewrite Nat2N.id in H.
    rewrite readMany_nums in H. cbn [bind fst snd] in H. apply bind_ok in H as ([[e1 em1] s1] & _ & H). apply bind_ok in H as ([[e2 f2] t2] & E & H).
    injection H as _ _ <-. apply (IH todo _ _ _ _ _ _ ltac:(injection L; auto) E).
Qed.
Lemma cell_rest l : forall first c prev b F rest b' F' t, load_cell_loop (length l) first c prev b F (map (fun x => Tn x) l ++ rest) = Ok (b', F', t) -> t = rest.
Proof.
  induction l as [|x l IH]; intros first c prev b F rest b' F' t H; cbn [length map app load_cell_loop] in H.
  - injection H as _ _ <-. reflexivity.
  - cbn [readN bind fst snd] in H. apply bind_ok in H as (F1 & _ & H). apply bind_ok in H as (F2 & _ & H). eapply IH; exact H.
Qed.
Lemma cells_rest cells : forall todo c F rest bs F' t, length todo = length cells ->
  load_cells_loop todo c F (flat_map counted cells ++ rest) = Ok (bs, F', t) -> t = rest.
Proof.
  induction cells as [|l cells IH]; intros [|b todo] c F rest bs F' t L H; try discriminate L.
  - injection H as _ _ <-. reflexivity.
  - cbn [flat_map load_cells_loop] in H. unfold counted at 1, num in H. rewrite <- app_assoc in H. cbn [app readN bind fst snd] in H. rewrite Nat2N.id in H.
    apply bind_ok in H as ([[b1 F1] t1] & E1 & H). apply cell_rest in E1. subst t1. apply bind_ok in H as ([[bs2 F2] t2] & E & H). injection H as _ _ <-.
    apply (IH todo _ _ _ _ _ _ ltac:(injection L; auto) E).
Qed.
Lemma layout_rest reserve (F : fpma_file C) rest m a b c t : loadVertices (layout F ++ rest) m = Ok a ->
  loadFaces reserve (snd a) (fst a) = Ok b -> loadCells (snd b) (fst b) = Ok (c, t) -> t = rest.
Proof.
  intros H1 H2 H3. unfold loadVertices, layout, num in H1. repeat (rewrite <- !app_assoc in H1; cbn [app] in H1). cbn [readN bind fst snd] in H1.
  rewrite Nat2N.id, readMany_points in H1. injection H1 as <-. cbn [fst snd] in H2.
  unfold loadFaces in H2. cbn [readN bind fst snd] in H2. rewrite Nat2N.id in H2. apply bind_ok in H2 as ([[e fs] t1] & E & H2).
  apply faces_rest in E; [|apply vresize_length]. subst t1. injection H2 as <-. cbn [fst snd] in H3.
  unfold loadCells in H3. cbn [readN bind fst snd] in H3. rewrite Nat2N.id in H3. apply bind_ok in H3 as ([[e' fs'] t1] & E & H3).
  apply cells_rest in E; [|apply vresize_length]. injection H3 as _ <-. exact E.
Qed.
End Rest.

Lemma shown_nil C (K : fp C) g s : fshown K g [] s -> all_space s = true.
Proof.
  remember [] as ts. intros H. revert Heqts. induction H as [|c l s Hc H IH|n l s Hn Hs H IH|y x q l s Hg Hq Hs H IH]; intros E; try discriminate E; [reflexivity|].
  cbn. rewrite Hc. apply IH. exact E.
Qed.
Lemma shown_last C (K : fp C) g s n : fshown K g [Tn n] s -> exists w w', s = w ++ putN n ++ w' /\ all_space w = true /\ all_space w' = true.
Proof.
  intros H. destruct (fshown_head K g _ _ _ H) as (w & u & s' & -> & Hw & _ & HS & -> & _). exists w, s'. split; [reflexivity|]. split; [exact Hw|].
  apply (shown_nil C K g). exact HS.
Qed.
Lemma space_tail (a b w : text) : a ++ str "0" = b ++ w -> all_space w = true -> w = [].
Proof.
  intros E H. destruct w as [|x w] using rev_ind; [reflexivity|]. exfalso. rewrite app_assoc in E. apply app_inj_tail in E as [_ <-].
  rewrite all_space_app in H. apply andb_true_iff in H as [_ H]. discriminate H.
Qed.

(** The beginning p of a written file is accepted only if every number in it is there, except that the last face of the
    last cell (or, without cells, their number) may be cut: if that is complete too, the mesh is the right one. *)
Theorem C82_fpma_cut : forall C (K : fp C) (m : Mesh (C * C * C)) reserve s p r m',
  wf_mesh m -> m_dim m = 3 ->
  (forall f, In f (m_faces m) -> exists vs, bounds (mesh_edges m) (f_subs f) vs) ->
  (N.of_nat (length (m_faces m)) <= INVALID)%N -> (N.of_nat (length (m_cells m)) <= INVALID)%N -> (N.of_nat (length (m_verts m)) < 2 ^ 64)%N ->
  (reserve = 0 \/ forall f, In f (m_faces m) -> length (f_subs f) <= reserve) ->
  writeFPMAtext K m = Ok s -> s = p ++ r -> readFPMA K reserve p (emptyMesh 3) = Ok m' ->
  exists u d w, s = u ++ putN d ++ w ++ str "0" /\ all_space w = true /\ length u < length p /\
    (length (u ++ putN d) <= length p -> readFPMA K reserve s (emptyMesh 3) = Ok m').
Proof.
  intros C K m reserve s p r m' W D B SF SC SV HR Hw -> Hr.
  destruct (write_text_file K m W D B SF SC SV) as (F & Et & Es & Sh). rewrite Es in Hw. injection Hw as Ef.
  destruct (C22_fpma_roundtrip C m reserve W D B SF SC HR) as (ts' & m1 & Et' & El & _). rewrite Et in Et'. injection Et' as <-.
  rewrite Ef in Sh. assert (HI : InStep K (reread K) p r (layout F ++ [Tn 0%N]) (fileOf p)).
  { split; [reflexivity|]. split; [exact Sh|]. exists []. reflexivity. }
  destruct (cut_FPMA K (reread K) p r reserve _ _ _ _ HI El Hr) as (t & (a & b & c & L1 & L2 & L3) & Cases).
  apply (layout_rest reserve F _ _ _ _ _ _ L1 L2) in L3. subst t.
  assert (Tail : exists X, p ++ r = X ++ str "0") by (rewrite <- Ef; unfold fileText; eexists; rewrite !app_assoc; reflexivity). destruct Tail as [X HX].
  destruct Cases as [(-> & i & (_ & Sh1 & u & n & Ep))|(u & n & s' & Ep & Sh1 & L)].
  - destruct (shown_last _ _ _ _ _ Sh1) as (w & w' & E & Hw1 & Hw2). change (putN 0) with (str "0") in E.
    assert (Epr : p ++ r = u ++ putN n ++ w ++ str "0" ++ w') by (rewrite Ep at 1; rewrite <- !app_assoc; rewrite E; reflexivity).
    assert (w' = []) as ->.
    { apply (space_tail X (u ++ putN n ++ w ++ str "0")); [|exact Hw2]. rewrite <- HX, Epr, <- !app_assoc. reflexivity. }
    rewrite app_nil_r in Epr. exists u, n, w. split; [exact Epr|]. split; [exact Hw1|]. split.
    + apply (f_equal (@length _)) in Ep. rewrite !app_length in Ep. pose proof (putN_nonempty n) as NE. destruct (putN n); [contradiction|]. cbn [length] in Ep. lia.
    + intros _. apply (char_FPMA K (reread K) reserve _ _ _ _ Sh El).
  - destruct (shown_last _ _ _ _ _ Sh1) as (w & w' & E & Hw1 & Hw2). change (putN 0) with (str "0") in E. subst s'.
    assert (w' = []) as ->.
    { apply (space_tail X (u ++ putN n ++ w ++ str "0")); [|exact Hw2]. rewrite <- HX, Ep, <- !app_assoc. reflexivity. }
    rewrite app_nil_r in Ep. exists u, n, w. split; [exact Ep|]. split; [exact Hw1|]. split; [lia|]. rewrite app_length. lia.
Qed.
Print Assumptions C82_fpma_cut.

(** A file without any number. *)
Theorem C82_fpma_empty : forall C (K : fp C) reserve w m, all_space w = true -> readFPMA K reserve w m = UB.
Proof.
  intros C K reserve w m H. unfold readFPMA, xFPMA, xVertices. rewrite outN; [reflexivity|]. unfold Out, sentry, fileOf. cbn [failed chars].
  rewrite skip_all by exact H. reflexivity.
Qed.
Print Assumptions C82_fpma_empty.

(** A prism over a polygon of nine sides: 11 faces. *)
Definition ninePrism : fpma_file Q :=
  let base z := map (fun i => (Z.of_nat i # 1, Z.of_nat (i * (8 - i)) # 1, z)%Q) (seq 0 9) in
  mkFile (base 0%Q ++ base 1%Q)
    (seqN 9 :: map (fun i => (i + 9)%N) (seqN 9) :: map (fun i => let j := (if i =? 8 then 0 else i + 1)%N in [i; j; j + 9; i + 9]%N) (seqN 9)) [seqN 11].

(** Finding: the file of this prism without its last four characters ("0 \n0") is accepted, but the cell has become one of
    two faces. Nothing reports the loss. *)
Example C82_finding_wrong_mesh :
  exists m s p m', wf_mesh m /\ m_dim m = 3 /\
    (forall f, In f (m_faces m) -> exists vs, bounds (mesh_edges m) (f_subs f) vs) /\
    writeFPMAtext exactQ m = Ok s /\ s = p ++ str "0 " ++ [nl] ++ str "0" /\
    readFPMA exactQ 0 p (emptyMesh 3) = Ok m' /\
    ring m 0%N [0;1;2;3;4;5;6;7;8;9;10]%N /\ ring m' 0%N [0;1]%N.
Proof.
  destruct (C20_fpma_wf Q 0 ninePrism []) as (m & E & W).
  - constructor; cbn [ninePrism ff_polys ff_cells length].
    + unfold INVALID. vm_compute. discriminate.
    + unfold INVALID. vm_compute. discriminate.
    + intros fs [<-|[]]. split; [discriminate|]. split; [apply nodupb_sound; reflexivity|]. intros f Hf. apply in_seqN in Hf. exact Hf.
    + intros f. unfold listing. cbn [length seqN seq map filter]. destruct (existsb _ _); simpl; lia.
  - assert (P : forallb (fun l => nodupb l && (3 <=? length l) && forallb (fun v => (v <? 18)%N) l) (ff_polys ninePrism) = true) by (vm_compute; reflexivity).
    intros l Hl. rewrite forallb_forall in P. specialize (P l Hl). rewrite !andb_true_iff in P. destruct P as [[P1 P2] P3].
    split; [split; [apply nodupb_sound; exact P1|apply Nat.leb_le; exact P2]|]. intros v Hv. rewrite forallb_forall in P3. specialize (P3 v Hv). apply N.ltb_lt in P3. exact P3.
  - left. reflexivity.
  - vm_compute in E. injection E as <-. eexists _, _, _, _. split; [exact W|]. split; [reflexivity|]. split.
    + intros f Hf. apply bounds_check_sound. revert f Hf. apply forallb_forall. vm_compute. reflexivity.
    + split; [vm_compute; reflexivity|]. split.
      * match goal with |- ?s = _ => let s' := eval vm_compute in (firstn (length s - 4) s) in instantiate (1 := s') end. vm_compute. reflexivity.
      * split; [vm_compute; reflexivity|]. split; apply ring_iff; vm_compute; reflexivity.
Qed.
Print Assumptions C82_finding_wrong_mesh.

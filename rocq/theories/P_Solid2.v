(** The native cells of a whole mesh, and the 3D VTK round trip. *)
From Coq Require Import String Permutation.
From Verif Require Import Base P_Base M_Conn M_Mesh S_Mesh M_Apply P_Apply M_Connections T_Connections M_FPMA S_FPMA P_Poly P_FPMA P_FPMAWrite
  M_VTK S_VTK P_Bnd P_VTK P_VTK3 T_VTK3 M_VTKWrite P_VTKWrite P_Tess S_Tess S_Solid P_Solid T_VTKWrite.
Local Open Scope list_scope.

Section Mesh3.
Context {V : Type}.
Variables (ori : list (list bool)) (ccenter fcenter : N -> V) (key : V -> string).
Variables (m : Mesh V) (types : list etype).
Hypothesis W : wf_mesh m.
Hypothesis D : m_dim m = 3.
Hypothesis O : Forall2 (fun o f => length o = length (f_subs f)) ori (m_faces m).

Lemma cell_solid c ty vs t : is_solid m c vs -> solid_size ty = Some (length vs) -> nth_error types (N.to_nat c) = Some ty ->
  exists vs', index_cell3 ori ccenter fcenter key m types t c = Ok (push_cell vs' ty t) /\
    is_solid m c vs' /\ length vs' = length vs.
Proof.
  intros S Z Hty. pose proof S as (ND & fs & ps & R & P & F).
  assert (NV : In (length vs) [4; 5; 6; 8]) by (destruct ty; try discriminate; injection Z as <-; simpl; auto).
  destruct (index_cell_solid m c vs fs ps W D ND NV R P F ori O ccenter fcenter key types ty t Hty Z) as (pi & E & Sy).
  eexists. split; [exact E|]. apply symmetric_solid; assumption.
Qed.

Definition native_solid (c : N) (ty : etype) (b : list (list N * etype)) : Prop :=
  native3 ty = true -> exists vs, b = [(vs, ty)] /\ is_solid m c vs /\ solid_size ty = Some (length vs).
Let pts (t : @tess V) := m_verts m ++ t_verts t.
Definition Inv2 (k : nat) (t : @tess V) : Prop :=
  keys_ok key m t /\ (forallb native3 types = true -> t_verts t = []) /\ exists blocks, length blocks = k /\ t_cells t = List.concat blocks /\
    forall c b, nth_error blocks (N.to_nat c) = Some b ->
       exists ty, nth_error types (N.to_nat c) = Some ty /\ written_for m ccenter fcenter key (pts t) c ty b /\ native_solid c ty b.

Lemma Inv2_snoc k t t' b ty :
  Inv2 k t -> nth_error types k = Some ty -> ext t t' -> keys_ok key m t' -> t_cells t' = t_cells t ++ b ->
  written_for m ccenter fcenter key (pts t') (N.of_nat k) ty b -> native_solid (N.of_nat k) ty b ->
  (native3 ty = true -> t_verts t' = t_verts t) ->
  Inv2 (S k) t'.
Proof.
  intros (K & Z & blocks & L & Cs & Bl) Ht E K' C' Wr Ns Z'. split; [assumption|]. split.
  { intros H. rewrite Z'; auto. rewrite forallb_forall in H. apply H. eapply nth_error_In; eassumption. }
  exists (blocks ++ [b]). splits.
  - rewrite app_length. simpl. lia.
  - rewrite concat_app, C', Cs. simpl. rewrite app_nil_r. reflexivity.
  - intros c x Hx. destruct (Nat.lt_ge_cases (N.to_nat c) (length blocks)) as [Hl|Hl].
    + rewrite nth_error_app1 in Hx by assumption. destruct (Bl c x Hx) as (ty' & A1 & A2 & A3). exists ty'. splits; auto.
      eapply written_ext; eassumption.
    + rewrite nth_error_app2 in Hx by assumption.
      destruct (N.to_nat c - length blocks) as [|j] eqn:Ej; [|simpl in Hx; destruct j; discriminate].
      injection Hx as <-. assert (c = N.of_nat k) by lia. subst c. rewrite Nat2N.id. eauto.
Qed.

Hypothesis T : forall c, (c < N.of_nat (length (m_cells m)))%N -> exists ty, nth_error types (N.to_nat c) = Some ty /\
  (native3 ty = false \/ exists vs, is_solid m c vs /\ solid_size ty = Some (length vs)).

Lemma step2 k t : Inv2 k t -> k < length (m_cells m) ->
  exists t', index_cell3 ori ccenter fcenter key m types t (N.of_nat k) = Ok t' /\ Inv2 (S k) t'.
Proof.
  intros I Hk. destruct (T (N.of_nat k) ltac:(lia)) as (ty & Hty & H).
  destruct (native3 ty) eqn:Hn.
  - destruct H as [H|(vs & S & Z)]; [discriminate|].
    destruct (cell_solid _ ty vs t S Z Hty) as (vs' & E & S' & L'). exists (push_cell vs' ty t). split; auto.
    rewrite Nat2N.id in Hty. eapply (Inv2_snoc k t _ [(vs', ty)]); eauto.
    + exists []. rewrite app_nil_r. reflexivity.
    + exact (proj1 I).
    + unfold written_for. rewrite Hn. eauto.
    + intros _. exists vs'. splits; auto. congruence.
  - destruct (wf_ring m W (N.of_nat k)) as (fs & R); [lia|].
    destruct (tess_cell_spec ccenter fcenter key m W D _ fs t R (proj1 I)) as (t2 & is & block & E2 & I2 & (G1 & G2 & G3 & G4) & T2).
    exists t2. split.
    + unfold index_cell3. apply vat_ok in Hty. rewrite Hty. cbn [bind]. destruct ty; try discriminate; assumption.
    + rewrite Nat2N.id in Hty. eapply (Inv2_snoc k t t2 block); eauto.
      * unfold written_for. rewrite Hn. exists fs, is. splits; auto.
      * intros H'. congruence.
      * intros H'. congruence.
Qed.

Lemma index_native : exists t, indexMesh3 ori ccenter fcenter key m types = Ok t /\ Inv2 (length (m_cells m)) t.
Proof.
  unfold indexMesh3.
  destruct (C11_connections_down V m 3 0 W) as (tbl & E & _); [lia|]. rewrite E. cbn [bind]. clear E.
  assert (G : forall n k t, Inv2 k t -> k + n = length (m_cells m) ->
    exists t', foldM (index_cell3 ori ccenter fcenter key m types) (map N.of_nat (seq k n)) t = Ok t' /\ Inv2 (length (m_cells m)) t').
  { induction n as [|n IH]; intros k t I L.
    - exists t. split; [reflexivity|]. now replace (length (m_cells m)) with k by lia.
    - destruct (step2 k t I ltac:(lia)) as (t1 & E1 & I1). destruct (IH (S k) t1 I1 ltac:(lia)) as (t' & E' & I').
      exists t'. split; auto. cbn [seq map foldM]. rewrite E1. exact E'. }
  apply (G (length (m_cells m)) 0); [|lia]. split.
  - split; [|split]; cbn; [discriminate|reflexivity|constructor].
  - split; [reflexivity|]. exists []. splits; auto. intros c b H. destruct (N.to_nat c); discriminate.
Qed.
End Mesh3.

(** * Meshes of solids only *)
Lemma bounds_unique ed k x y : bounds ed k x -> bounds ed k y -> exists u, same_polygon x u /\ same_polygon y u.
Proof.
  intros Bx By.
  destruct (indexFace_spec _ _ _ Bx) as (u & _ & _ & _ & Eu & Sx & _).
  destruct (indexFace_spec _ _ _ By) as (u' & _ & _ & _ & Eu' & Sy & _).
  assert (u = u') by congruence. subst u'. eauto.
Qed.
Lemma face_polygon_transfer {V V'} (m : Mesh V) (m' : Mesh V') f f' p q :
  face_polygon m f p -> face_polygon m' f' p -> face_polygon m f q -> face_polygon m' f' q.
Proof.
  intros (fc & H & B) (fc' & H' & B') (fc2 & H2 & B2). rewrite H in H2. inv H2.
  exists fc'. split; auto. destruct (bounds_unique _ _ _ _ B B2) as (u & S1 & S2).
  eapply bounds_same; [apply same_polygon_sym; exact S2|]. eapply bounds_same; [exact S1|exact B'].
Qed.

(** A choice of one value per index below n. *)
Lemma finite_choice {A} (d : A) (R : N -> A -> Prop) n : (forall i, (i < N.of_nat n)%N -> exists y, R i y) ->
  exists phi : N -> A, forall i, (i < N.of_nat n)%N -> R i (phi i).
Proof.
  intros H. assert (G : exists l, length l = n /\ forall i y, nth_error l i = Some y -> R (N.of_nat i) y).
  { induction n as [|n IH]; [exists []; split; [reflexivity|intros [|] ?; discriminate]|].
    destruct IH as (l & L & Hl); [intros i Hi; apply H; lia|]. destruct (H (N.of_nat n) ltac:(lia)) as (y & Hy).
    exists (l ++ [y]). split; [rewrite app_length; simpl; lia|]. intros i z Hz.
    destruct (Nat.lt_ge_cases i (length l)) as [Q|Q].
    - rewrite nth_error_app1 in Hz by auto. auto.
    - rewrite nth_error_app2 in Hz by auto. destruct (i - length l) as [|j] eqn:Ej; [|destruct j; discriminate].
      inv Hz. replace i with (length l) by lia. exact Hy. }
  destruct G as (l & L & Hl). exists (fun i => nth (N.to_nat i) l d). intros i Hi.
  rewrite <- (N2Nat.id i) at 1. apply Hl. apply nth_error_nth'. lia.
Qed.

Section RT3.
Context {C : Type}.
Variables (ori : list (list bool)) (ccenter fcenter : N -> C * C * C) (key : C * C * C -> string).
Variables (m : Mesh (C * C * C)) (types : list etype).
Hypothesis W : wf_mesh m.
Hypothesis D : m_dim m = 3.
Hypothesis O : Forall2 (fun o f => length o = length (f_subs f)) ori (m_faces m).
Hypothesis LT : length types = length (m_cells m).
Hypothesis T : forall c ty, nth_error types (N.to_nat c) = Some ty -> exists vs, is_solid m c vs /\ solid_size ty = Some (length vs).
Hypothesis UF : forall f g p q, face_polygon m f p -> face_polygon m g q -> same_sides p q -> f = g.
Hypothesis SZ : (N.of_nat (6 * length (m_cells m)) <= INVALID)%N.

Lemma written3_index : exists t rows codes, indexMesh3 ori ccenter fcenter key m types = Ok t /\ t_verts t = [] /\ rows = map fst (t_cells t) /\
  writeVTK3 ori ccenter fcenter key m types = Ok (vtk_body (mkVtk (m_verts m) rows codes)) /\ Forall2 (fun ty n => vtkCode3 ty = Some n) types codes /\ length rows = length (m_cells m) /\ forall c vs, nth_error rows (N.to_nat c) = Some vs -> is_solid m c vs /\ In (length vs) [4; 5; 6; 8].
Proof.
  assert (NT : forall ty (vs : list N), solid_size ty = Some (length vs) -> native3 ty = true /\ In (length vs) [4; 5; 6; 8])
    by (intros ty vs Z; destruct ty; try discriminate; injection Z as <-; simpl; auto 10).
  destruct (index_native ori ccenter fcenter key m types W D O) as (t & E & _ & VE & blocks & LB & Cs & HB).
  { intros c Hc. destruct (nth_error types (N.to_nat c)) as [ty|] eqn:Ety; [|apply nth_error_None in Ety; lia].
    exists ty. split; auto. }
  assert (Hv : t_verts t = []).
  { apply VE. apply forallb_forall. intros ty Hty. apply In_nth_error in Hty as [i Hi].
    destruct (T (N.of_nat i) ty) as (vs & _ & Z); [now rewrite Nat2N.id|]. exact (proj1 (NT _ _ Z)). }
  destruct (C29_text ori ccenter fcenter key m types t W D E) as (codes & EW & FC).
  rewrite Hv, app_nil_r in EW.
  assert (G : forall bs k, (forall i b, nth_error bs i = Some b -> nth_error blocks (k + i) = Some b) ->
     map snd (List.concat bs) = firstn (length bs) (skipn k types) /\ length (List.concat bs) = length bs /\ forall i vs, nth_error (map fst (List.concat bs)) i = Some vs -> is_solid m (N.of_nat (k + i)) vs /\ In (length vs) [4; 5; 6; 8]).
  { induction bs as [|b bs IH]; intros k H; [split; [reflexivity|split; [reflexivity|intros [|] ? ?; discriminate]]|].
    destruct (IH (S k)) as (I1 & I2 & I3).
    { intros i b' Hb. replace (S k + i) with (k + S i) by lia. apply H. exact Hb. }
    pose proof (H 0 b eq_refl) as H0. rewrite Nat.add_0_r in H0.
    destruct (HB (N.of_nat k) b) as (ty & Hty & _ & NS); [now rewrite Nat2N.id|].
    destruct (T (N.of_nat k) ty Hty) as (vs0 & _ & Z0). destruct (NT _ _ Z0) as [Hn _].
    destruct (NS Hn) as (vs & -> & Sol & Z). rewrite Nat2N.id in Hty. destruct (NT _ _ Z) as [_ NV].
    splits.
    - cbn [List.concat app map snd length]. rewrite I1.
      clear - Hty. revert k Hty. induction types as [|x l IH]; intros [|k] H; try discriminate; simpl in *; [congruence|apply IH; auto].
    - simpl. now rewrite I2.
    - intros [|i] vs1 Hi; cbn in Hi; [inv Hi; rewrite Nat.add_0_r; auto|].
      replace (k + S i) with (S k + i) by lia. now apply I3. }
  destruct (G blocks 0) as (G1 & G2 & G3); [auto|]. rewrite <- Cs in *.
  exists t, (map fst (t_cells t)), codes. splits; auto.
  - cbn [skipn] in G1. rewrite LB, <- LT, firstn_all in G1. rewrite <- G1. rewrite Forall2_map_l. exact FC.
  - rewrite map_length, G2. exact LB.
  - intros c vs Hc. rewrite <- (N2Nat.id c). apply (G3 (N.to_nat c) vs Hc).
Qed.

Lemma written3 : exists rows codes,
  writeVTK3 ori ccenter fcenter key m types = Ok (vtk_body (mkVtk (m_verts m) rows codes)) /\ Forall2 (fun ty n => vtkCode3 ty = Some n) types codes /\ length rows = length (m_cells m) /\ forall c vs, nth_error rows (N.to_nat c) = Some vs -> is_solid m c vs /\ In (length vs) [4; 5; 6; 8].
Proof. destruct written3_index as (t & rows & codes & _ & _ & _ & H). eauto. Qed.

Lemma solid_face c vs q : is_solid m c vs -> In q (faces_of vs) -> exists fs f, ring m c fs /\ In f fs /\ face_polygon m f q.
Proof.
  intros (ND & fs & ps & R & P & F) Hq. rewrite <- P in Hq. destruct (Forall2_In_r _ _ _ _ F Hq) as (f & Hf & B). eauto.
Qed.

Lemma grid3_written rows codes : length rows = length (m_cells m) ->
  (forall c vs, nth_error rows (N.to_nat c) = Some vs -> is_solid m c vs /\ In (length vs) [4; 5; 6; 8]) ->
  length codes = length types -> grid3_ok (mkVtk (m_verts m) rows codes).
Proof.
  intros L H LC. split; cbn [vf_cells vf_types vf_pts].
  - intros vs Hvs. apply In_nth_error in Hvs as [i Hi]. destruct (H (N.of_nat i) vs) as ((ND & _) & NV); [now rewrite Nat2N.id|]. auto.
  - intros p l ND HL. destruct l as [|c0 l']; [simpl; lia|]. set (l := c0 :: l') in *.
    assert (Fc : forall c, In c l -> exists fs f q, ring m c fs /\ In f fs /\ face_polygon m f q /\ same_sides p q).
    { intros c Hc. destruct (HL c Hc) as (vs & q & Hvs & Hq & S). destruct (H c vs Hvs) as (Sol & _).
      destruct (solid_face _ _ _ Sol Hq) as (fs & f & R & Hf & B). exists fs, f, q. auto. }
    destruct (Fc c0 (or_introl eq_refl)) as (fs0 & f0 & q0 & _ & _ & B0 & S0).
    apply (two_rings m f0); [assumption|]. intros c Hc. destruct (Fc c Hc) as (fs & f & q & R & Hf & B & S).
    exists fs. split; auto. rewrite (UF f0 f q0 q B0 B); auto.
    intros a b. rewrite <- (S0 a b). apply S.
  - rewrite L. exact SZ.
  - lia.
Qed.

Lemma solid_verts c vs v : is_solid m c vs -> In (length vs) [4; 5; 6; 8] -> In v vs -> (v < N.of_nat (length (m_verts m)))%N.
Proof.
  intros (ND & fs & ps & R & P & F) NV Hv.
  assert (I : incident m 3 0 c v) by (eapply cell_verts; eassumption).
  destruct (run_verts m c [] fs W D R) as (l & El & Hl).
  pose proof (c_lt' m c [] fs D R) as Hc.
  assert (Vl : visits m 3 0 c l) by (apply (visits_iff_run m 3 0 c l W); auto; lia).
  pose proof (visits_bound m 3 0 c l W ltac:(lia) Hc Vl v (proj2 (Hl v) I)) as Q.
  exact Q.
Qed.

Lemma roundtrip3 reserve name : one_line name -> reserve = 0 \/ 4 <= reserve ->
  exists ts m', writeVTK3 ori ccenter fcenter key m types = Ok ts /\
    loadVTK3 reserve (writeHeader name ++ ts) (emptyMesh 3) [] = Ok (m', types) /\
    wf_mesh m' /\ m_dim m' = 3 /\ m_verts m' = m_verts m /\ length (m_cells m') = length (m_cells m) /\
    (forall e e' a b, joins (edges3 m') e a b -> joins (edges3 m') e' a b -> e = e') /\
    (forall f g p q, face_polygon m' f p -> face_polygon m' g q -> same_sides p q -> f = g) /\
    exists phi : N -> N,
      (forall c fs, ring m c fs -> exists fs', ring m' c fs' /\ Permutation (map phi fs) fs') /\
      (forall c fs f p, ring m c fs -> In f fs -> (face_polygon m f p <-> face_polygon m' (phi f) p)) /\
      (forall f', (f' < N.of_nat (length (m_faces m')))%N -> exists c fs f, ring m c fs /\ In f fs /\ f' = phi f).
Proof.
  intros HN HR. destruct written3 as (rows & codes & EW & FC & L & H).
  assert (LC : length codes = length types) by (symmetry; eapply Forall2_length'; exact FC).
  pose proof (grid3_written rows codes L H LC) as G.
  set (F := mkVtk (m_verts m) rows codes) in *.
  exists (vtk_body F).
  set (l1 := [Vw "#"; Vw "vtk"; Vw "DataFile"; Vw "Version"; Vw "2.0"] : list (vtok C)).
  assert (H1 : one_line l1). { unfold one_line, l1. simpl. intuition discriminate. }
  assert (EH : writeHeader name ++ vtk_body F = vtk_header l1 name ++ vtk_body F ++ []).
  { rewrite app_nil_r. unfold writeHeader, vtk_header, l1. rewrite <- !app_assoc. reflexivity. }
  assert (HR' : reserve = 0 \/ forall vs p, In vs (vf_cells F) -> In p (faces_of vs) -> length p <= reserve).
  { destruct HR as [HR|HR]; [auto|]. right. intros vs p Hvs Hp. unfold faces_of in Hp. apply in_map_iff in Hp as (q & <- & Hq).
    rewrite map_length. assert (length q <= 4); [|lia].
    assert (Q : forall n, forallb (fun q => length q <=? 4) (shape_faces n) = true) by (intros n; do 9 (destruct n as [|n]; [reflexivity|]); reflexivity).
    specialize (Q (length vs)). rewrite forallb_forall in Q. apply Nat.leb_le. auto. }
  destruct (C28_vtk3_read F reserve l1 name [] (emptyMesh 3) [] G HR' H1 HN eq_refl eq_refl)
    as (m' & ty & edges & ess & EL & D' & M' & V' & L' & S' & R' & UE & UFm & A6 & A7 & A8).
  destruct (C26_types3 F reserve l1 name [] (emptyMesh 3) [] G HR' H1 HN eq_refl eq_refl)
    as (m2 & ty2 & EL2 & TL & TS & _). rewrite EL in EL2. injection EL2 as <- <-.
  destruct (C28_vtk3_wf F reserve l1 name [] (emptyMesh 3) [] G HR' H1 HN eq_refl eq_refl) as (m2 & ty2 & EL2 & Wf).
  { intros vs v Hvs Hv. apply In_nth_error in Hvs as [i Hi]. destruct (H (N.of_nat i) vs) as (Sol & NV); [now rewrite Nat2N.id|].
    cbn [F vf_pts]. eapply solid_verts; eassumption. }
  rewrite EL in EL2. injection EL2 as <- <-.
  assert (ty = types).
  { apply nth_error_ext. intros i. cbn [F vf_cells vf_types] in *.
    destruct (nth_error types i) as [t|] eqn:Et.
    - apply Forall2_nth in FC as [_ FT].
      destruct (nth_error codes i) as [code|] eqn:Ec.
      2:{ apply nth_error_None in Ec. assert (i < length types) by (apply nth_error_Some; congruence). lia. }
      apply (TS i code t Ec). specialize (FT i t code Et Ec).
      destruct t; simpl in FT; try discriminate; injection FT as <-; constructor.
    - apply nth_error_None in Et. apply nth_error_None. lia. }
  subst ty.
  assert (Me : edges3 m' = edges) by (unfold edges3; rewrite M'; reflexivity).
  assert (FP' : forall f p, (exists fc, nth_error (m_faces m') (N.to_nat f) = Some fc /\ bounds edges (f_subs fc) p) <-> face_polygon m' f p).
  { intros f p. unfold face_polygon. rewrite M'. reflexivity. }
  assert (UF' : forall f g p q, face_polygon m' f p -> face_polygon m' g q -> same_sides p q -> f = g).
  { intros f g p q Bf Bg S. apply FP' in Bf as (fc & Hf & Bf). apply FP' in Bg as (gc & Hg & Bg).
    assert (N.to_nat f = N.to_nat g) by (eapply UFm; eassumption). lia. }
  (* the faces of one cell *)
  assert (Cell : forall c fs, ring m c fs -> exists fs' gs, ring m' c fs' /\ Permutation gs fs' /\
     Forall2 (fun f f' => exists p, face_polygon m f p /\ face_polygon m' f' p) fs gs).
  { intros c fs R. pose proof (c_lt m c [] fs D R) as Hc.
    destruct (nth_error rows (N.to_nat c)) as [vs|] eqn:Ev; [|apply nth_error_None in Ev; lia].
    destruct (H c vs Ev) as ((ND & fs2 & ps & R2 & P & Fp) & NV). rewrite (ring_det _ _ _ _ R2 R) in *. clear R2 fs2.
    pose proof S' as S2. apply Forall2_nth in S2 as [LS S2]. cbn [F vf_cells] in LS, S2.
    destruct (nth_error ess (N.to_nat c)) as [es'|] eqn:Ee; [|apply nth_error_None in Ee; lia].
    specialize (S2 _ _ _ Ee Ev). exists es'.
    assert (S3 : Forall2 (fun p f => face_polygon m' f p) (faces_of vs) es').
    { apply Forall2_flip. eapply Forall2_mono; [|exact S2]. intros f p. apply FP'. }
    destruct (Permutation_Forall2 (Permutation_sym P) S3) as (gs & Pg & Fg).
    exists gs. splits; auto; [now symmetry|]. clear - Fp Fg. revert gs Fg.
    induction Fp as [|f p fs ps B _ IH]; intros gs Fg; inv Fg; constructor; eauto. }
  assert (Rings : exists rg : N -> list N, forall c, (c < N.of_nat (length (m_cells m)))%N -> ring m c (rg c)).
  { apply (finite_choice []). intros c Hc. apply (wf_ring m W c Hc). }
  destruct Rings as (rg & Hrg).
  assert (Phi : exists phi : N -> N, forall f, (f < N.of_nat (length (m_faces m)))%N ->
     (exists c fs, ring m c fs /\ In f fs) -> exists p, face_polygon m f p /\ face_polygon m' (phi f) p).
  { apply (finite_choice 0%N (fun f f' => (exists c fs, ring m c fs /\ In f fs) -> exists p, face_polygon m f p /\ face_polygon m' f' p)).
    intros f Hf. destruct (in_dec N.eq_dec f (flat_map rg (seqN (length (m_cells m))))) as [Hin|Hin].
    - apply in_flat_map in Hin as (c & Hc & Hin). apply in_seqN in Hc.
      destruct (Cell c (rg c) (Hrg c Hc)) as (fs' & gs & _ & _ & Fg). destruct (Forall2_In_l _ _ _ _ Fg Hin) as (f' & _ & Q).
      exists f'. auto.
    - exists 0%N. intros (c & fs & R & Hfs). exfalso. apply Hin. pose proof (c_lt m c [] fs D R) as Hc.
      apply in_flat_map. exists c. split; [now apply in_seqN|]. now rewrite (ring_det _ _ _ _ (Hrg c Hc) R). }
  destruct Phi as (phi & Hphi).
  assert (Map : forall c fs, ring m c fs -> exists fs', ring m' c fs' /\ Permutation (map phi fs) fs').
  { intros c fs R. destruct (Cell c fs R) as (fs' & gs & R2 & Pg & Fg). exists fs'. split; auto.
    assert (E : map phi fs = gs); [|now rewrite E].
    assert (Q : forall f, In f fs -> exists p, face_polygon m f p /\ face_polygon m' (phi f) p).
    { intros f Hf. apply Hphi; eauto. eapply ring_lt; eassumption. }
    clear - Fg Q UF'. induction Fg as [|f g fs gs (p & B & B') _ IH]; [reflexivity|]. simpl. f_equal.
    - destruct (Q f (or_introl eq_refl)) as (p2 & C1 & C2). 
      pose proof (face_polygon_transfer m m' f g p p2 B B' C1) as C3.
      apply (UF' _ _ p2 p2 C2 C3). intros a b; reflexivity.
    - apply IH. intros; apply Q; right; auto. }
  exists m'. rewrite EH. splits; auto.
  - rewrite L'. exact L.
  - rewrite Me. exact UE.
  - exists phi. splits; auto.
    + intros c fs f p R Hf. destruct (Hphi f) as (p2 & C1 & C2); eauto; [eapply ring_lt; eassumption|].
      split; intros Q; [exact (face_polygon_transfer m m' f (phi f) p2 p C1 C2 Q)|exact (face_polygon_transfer m' m (phi f) f p2 p C2 C1 Q)].
    + intros f' Hf'. destruct (A6 (N.to_nat f')) as (es & Hes & Hin); [lia|]. rewrite N2Nat.id in Hin.
      apply In_nth_error in Hes as [i Hi]. pose proof (R' (N.of_nat i) es ltac:(now rewrite Nat2N.id)) as Ri.
      assert (Hc : (N.of_nat i < N.of_nat (length (m_cells m)))%N).
      { pose proof (c_lt m' (N.of_nat i) [] es D' Ri) as Q. rewrite L' in Q. cbn [F vf_cells] in Q. lia. }
      destruct (Map (N.of_nat i) _ (Hrg _ Hc)) as (fs' & R2 & Pm). rewrite (ring_det _ _ _ _ R2 Ri) in Pm.
      rewrite <- Pm in Hin. apply in_map_iff in Hin as (f & E & Hf). exists (N.of_nat i), (rg (N.of_nat i)), f. splits; auto.
Qed.
End RT3.

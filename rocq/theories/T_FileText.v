(** C79, C80: numbers and FPMA files as characters. *)
From Coq Require Import String Ascii QArith Qabs Qround Lqa Permutation.
From Verif Require Import Base P_Base M_Conn S_Conn M_Mesh M_Connections S_Mesh M_Text M_Print M_Stream P_Stream S_Stream P_Stream2
  M_FPMA M_FileText S_FileText S_FPMA P_FPMA P_RoundTrip P_FileText P_FPMAText Ex_Mesh T_FPMA.
Local Open Scope nat_scope.
Local Open Scope list_scope.

(** * C79: numbers *)
(** An index survives writing and reading. [w]: white space before, [r]: what follows (white space or the end). *)
Theorem C79_index : forall n w r, (n < 2 ^ 64)%N -> all_space w = true -> stop r = true ->
  getN (mkI (w ++ putN n ++ r) false) = (Some n, mkI r false).
Proof. exact getN_putN. Qed.
Print Assumptions C79_index.

(** A coordinate is read back as the nearest number of six digits, so with a relative error of at most 5e-6. *)
Theorem C79_coordinate : forall x w r, all_space w = true -> stop r = true ->
  exists q, getDec (mkI (w ++ putQ x ++ r) false) = (Some q, mkI r false) /\ nearest_six x q /\
    (Qabs (q - x) <= (5 # 1000000) * Qabs x)%Q.
Proof.
  intros x w r Hw Hr. exists (round6 x). split; [apply getDec_putQ; assumption|]. split; [apply round6_nearest|apply round6_error].
Qed.
Print Assumptions C79_coordinate.

(** Numbers of at most six digits survive. *)
Theorem C79_exact : forall x w r, six_digits x -> all_space w = true -> stop r = true ->
  exists q, getDec (mkI (w ++ putQ x ++ r) false) = (Some q, mkI r false) /\ (q == x)%Q.
Proof.
  intros x w r Hx Hw Hr. destruct (C79_coordinate x w r Hw Hr) as (q & E & (_ & N) & _). exists q. split; [exact E|].
  specialize (N x Hx). setoid_replace (x - x)%Q with 0%Q in N by ring. change (Qabs 0) with 0%Q in N. apply Qabs_Qle_condition in N. lra.
Qed.
Print Assumptions C79_exact.

(** Nothing more is lost the second time: the number read is written with the same characters as the original. *)
Theorem C79_again : forall C (K : fp C) c i c', precise K ->
  getDec (mkI (putC K c) false) = (Some c', i) -> putC K (near K c') = putC K c.
Proof.
  intros C K c i c' P H. unfold putC in *. pose proof (getDec_putQ (val K c) [] [] eq_refl eq_refl) as G. cbn [app] in G. rewrite app_nil_r in G.
  rewrite G in H. injection H as <- _. apply (round6_stable (val K c)). apply P.
Qed.
Print Assumptions C79_again.

(** Finding: six digits are few. No writer sets the precision of the stream, so of a double's 15 to 17 digits 9 to 11 are
    lost; all numbers from 1000000 to 1000004.99... are written "1e+06". *)
Theorem C79_finding_six_digits : forall x, (1000000 <= x < 1000005)%Q -> putQ x = str "1e+06".
Proof.
  intros x [A B]. assert (E : exp10 x = 6%Z).
  { apply exp10_unique. change (pow10 6) with (1000000 # 1)%Q. change (pow10 (6 + 1)) with (10000000 # 1)%Q. lra. }
  assert (S6 : six x = (100000, 6)%Z).
  { unfold six. rewrite E. assert (R : rhe (x * pow10 (5 - 6)) = 100000%Z).
    { apply rhe_unique. change (pow10 (5 - 6)) with (1 # 10)%Q. change (inject_Z 100000) with (100000 # 1)%Q. apply Qabs_case; lra. }
    rewrite R. reflexivity. }
  unfold putQ, putPos. destruct (Qcompare_spec x 0) as [H|H|H]; [lra|lra|]. rewrite S6. reflexivity.
Qed.
Print Assumptions C79_finding_six_digits.

Example C79_instance : putQ (314159265 # 100000000) = str "3.14159" /\ putQ (- (1 # 3)) = str "-0.333333" /\
  putQ (1 # 30000) = str "3.33333e-05" /\ putQ (123456789 # 1) = str "1.23457e+08" /\
  getDec (mkI (str " 3.14159 x") false) = (Some (314159 # 100000), mkI (str " x") false).
Proof. vm_compute. auto. Qed.

(** * C80: FPMA files as characters *)
Lemma reread_copy C (K : fp C) c : six_digit_copy K c (reread K c).
Proof. exists (round6 (val K c)). split; [apply round6_nearest|]. split; [apply round6_error|reflexivity]. Qed.
Lemma reread_again C (K : fp C) c : precise K -> reread K (reread K c) = reread K c.
Proof. intros P. unfold reread at 1 3. f_equal. apply round6_stable. apply P. Qed.

Lemma closed_chain_ext V V' (m : Mesh V) (m' : Mesh V') c f0 fs : m_faces m = m_faces m' -> closed_chain m c f0 fs <-> closed_chain m' c f0 fs.
Proof.
  intros E. assert (E1 : forall f g, succ_face m c f g <-> succ_face m' c f g) by (intros; unfold succ_face; rewrite E; tauto).
  induction fs as [|f [|g r] IH]; cbn [closed_chain]; [tauto|apply E1|]. rewrite E1, IH. tauto.
Qed.
Lemma ring_ext V V' (m : Mesh V) (m' : Mesh V') c fs : m_faces m = m_faces m' -> m_cells m = m_cells m' -> ring m c fs <-> ring m' c fs.
Proof. intros E1 E2. unfold ring. rewrite E2. setoid_rewrite (closed_chain_ext _ _ m m' c _ fs E1). tauto. Qed.
Lemma wf_with_verts V V' (m : Mesh V) (m' : Mesh V') : wf_mesh m -> m_dim m = m_dim m' -> length (m_verts m) = length (m_verts m') -> m_mid m = m_mid m' ->
  m_faces m = m_faces m' -> m_cells m = m_cells m' -> wf_mesh m'.
Proof.
  intros [W1 W2 W3 W4] E1 E2 E3 E4 E5.
  constructor.
  - rewrite <- E1. exact W1.
  - rewrite <- E1, <- E3. exact W2.
  - intros k i js Hk Hs. assert (Hs' : subs m k i = Ok js) by (unfold subs in *; rewrite E1, E3, E4; exact Hs).
    rewrite <- E1 in Hk. destruct (W3 k i js Hk Hs') as (A & B & D). split; [exact A|]. split; [|exact D].
    intros j Hj. specialize (B j Hj). unfold n_elems in *. rewrite E1, E2, E3, E4, E5 in B. exact B.
  - intros c Hc. rewrite <- E5 in Hc. destruct (W4 c Hc) as (fs & R). exists fs. apply (ring_ext _ _ m m'); assumption.
Qed.

(** Writing a mesh and reading the file, character by character: the mesh of C22 (cells, faces, their order, the polygon
    of every face), the coordinates rounded to six digits. If the coordinate type is at least as precise as float, a
    second round trip changes no coordinate. *)
Theorem C80_fpma_characters : forall C (K : fp C) (m : Mesh (C * C * C)) reserve,
  wf_mesh m -> m_dim m = 3 ->
  (forall f, In f (m_faces m) -> exists vs, bounds (mesh_edges m) (f_subs f) vs) ->
  (N.of_nat (length (m_faces m)) <= INVALID)%N -> (N.of_nat (length (m_cells m)) <= INVALID)%N -> (N.of_nat (length (m_verts m)) < 2 ^ 64)%N ->
  (reserve = 0 \/ forall f, In f (m_faces m) -> length (f_subs f) <= reserve) ->
  exists s m', writeFPMAtext K m = Ok s /\ readFPMA K reserve s (emptyMesh 3) = Ok m' /\
    wf_mesh m' /\ m_dim m' = 3 /\ Forall2 (copy3 K) (m_verts m) (m_verts m') /\
    length (m_faces m') = length (m_faces m) /\ length (m_cells m') = length (m_cells m) /\
    (forall c fs, ring m' c fs <-> ring m c fs) /\
    (forall i f f' vs, nth_error (m_faces m) i = Some f -> nth_error (m_faces m') i = Some f' ->
       (bounds (mesh_edges m') (f_subs f') vs <-> bounds (mesh_edges m) (f_subs f) vs)) /\
    (precise K -> exists s' m'', writeFPMAtext K m' = Ok s' /\ readFPMA K reserve s' (emptyMesh 3) = Ok m'' /\ m_verts m'' = m_verts m').
Proof.
  assert (Cycle : forall C (K : fp C) (m : Mesh (C * C * C)) reserve,
    wf_mesh m -> m_dim m = 3 ->
    (forall f, In f (m_faces m) -> exists vs, bounds (mesh_edges m) (f_subs f) vs) ->
    (N.of_nat (length (m_faces m)) <= INVALID)%N -> (N.of_nat (length (m_cells m)) <= INVALID)%N -> (N.of_nat (length (m_verts m)) < 2 ^ 64)%N ->
    (reserve = 0 \/ forall f, In f (m_faces m) -> length (f_subs f) <= reserve) ->
    exists s m', writeFPMAtext K m = Ok s /\ readFPMA K reserve s (emptyMesh 3) = Ok m' /\
      wf_mesh m' /\ m_dim m' = 3 /\ m_verts m' = map (map3 (reread K)) (m_verts m) /\
      length (m_faces m') = length (m_faces m) /\ length (m_cells m') = length (m_cells m) /\
      (forall c fs, ring m' c fs <-> ring m c fs) /\
      (forall i f f' vs, nth_error (m_faces m) i = Some f -> nth_error (m_faces m') i = Some f' ->
         (bounds (mesh_edges m') (f_subs f') vs <-> bounds (mesh_edges m) (f_subs f) vs))).
  { intros C K m reserve W D B SF SC SV HR. destruct (write_text K m W D B SF SC SV) as (ts & s & Et & Es & Sh).
    destruct (C22_fpma_roundtrip C m reserve W D B SF SC HR) as (ts' & m' & Et' & El & W' & D' & V' & L1 & L2 & R & P).
    rewrite Et in Et'. injection Et' as <-. exists s, (with_verts m' (map (map3 (reread K)) (m_verts m'))).
    split; [exact Es|]. split; [apply (char_FPMA K (reread K) reserve ts s _ _ Sh El)|].
    split; [apply (wf_with_verts _ _ m'); try reflexivity; [exact W'|cbn [with_verts m_verts]; symmetry; apply map_length]|].
    split; [exact D'|]. split; [cbn [with_verts m_verts]; rewrite V'; reflexivity|]. split; [exact L1|]. split; [exact L2|].
    split; [|exact P]. intros c fs. rewrite <- R. apply ring_ext; reflexivity. }
  intros C K m reserve W D B SF SC SV HR.
  destruct (Cycle C K m reserve W D B SF SC SV HR) as (s & m' & A1 & A2 & A3 & A4 & A5 & A6 & A7 & A8 & A9).
  exists s, m'. split; [exact A1|]. split; [exact A2|]. split; [exact A3|]. split; [exact A4|]. split.
  { rewrite A5. clear. induction (m_verts m) as [|p l IH]; constructor; [|exact IH]. repeat split; apply reread_copy. }
  split; [exact A6|]. split; [exact A7|]. split; [exact A8|]. split; [exact A9|]. intros P.
  destruct (Cycle C K m' reserve A3 A4) as (s' & m'' & B1 & B2 & _ & _ & B5 & _).
  - intros f' Hf'. apply In_nth_error in Hf' as [i Hi]. assert (i < length (m_faces m')) by (apply nth_error_Some; congruence).
    destruct (nth_error (m_faces m) i) as [f|] eqn:Ef; [|apply nth_error_None in Ef; lia].
    destruct (B f (nth_error_In _ _ Ef)) as (vs & Hvs). exists vs. apply (A9 i f f' vs Ef Hi). exact Hvs.
  - rewrite A6. exact SF.
  - rewrite A7. exact SC.
  - rewrite A5, map_length. exact SV.
  - destruct HR as [HR|HR]; [left; exact HR|right]. intros f' Hf'. apply In_nth_error in Hf' as [i Hi].
    assert (i < length (m_faces m')) by (apply nth_error_Some; congruence).
    destruct (nth_error (m_faces m) i) as [f|] eqn:Ef; [|apply nth_error_None in Ef; lia].
    destruct (B f (nth_error_In _ _ Ef)) as (vs & Hvs). pose proof (proj2 (A9 i f f' vs Ef Hi) Hvs) as Hvs'.
    destruct Hvs as (_ & es & Pm & _ & Ls & _). destruct Hvs' as (_ & es' & Pm' & _ & Ls' & _).
    rewrite (Permutation_length Pm'), Ls', <- Ls, <- (Permutation_length Pm). apply HR. eapply nth_error_In; exact Ef.
  - exists s', m''. split; [exact B1|]. split; [exact B2|]. rewrite B5, A5, map_map. apply map_ext. intros p. unfold map3.
    cbn [fst snd]. rewrite !reread_again by exact P. reflexivity.
Qed.
Print Assumptions C80_fpma_characters.

(** * Instances *)
(** Exact rational coordinates. *)
Definition exactQ : fp Q := mkFp Q (fun c => c) (fun q => q).
Lemma exactQ_precise : precise exactQ.
Proof. intros q. cbn [val near exactQ]. setoid_replace (q - q)%Q with 0%Q by ring. change (Qabs 0) with 0%Q. pose proof (Qabs_nonneg q). lra. Qed.
(** The mesh of MeshSetup.h with its x coordinates divided by 3. *)
Definition thirds : Mesh (Q * Q * Q) :=
  mkMesh 3 (map (fun p => (fst (fst p) # 3, snd (fst p) # 1, snd p # 1)) (m_verts twoPrisms)) (m_mid twoPrisms) (m_faces twoPrisms) (m_cells twoPrisms) [].
Example C80_instance : precise exactQ /\ wf_mesh thirds /\ m_dim thirds = 3 /\
  (forall f, In f (m_faces thirds) -> exists vs, bounds (mesh_edges thirds) (f_subs f) vs) /\
  exists s m', writeFPMAtext exactQ thirds = Ok s /\ readFPMA exactQ 4 s (emptyMesh 3) = Ok m' /\
    nth_error (m_verts thirds) 1 = Some (1 # 3, 0 # 1, 0 # 1)%Q /\ nth_error (m_verts m') 1 = Some (333333 # 1000000, 0, 0)%Q.
Proof.
  split; [exact exactQ_precise|]. split; [apply (wf_with_verts _ _ twoPrisms); try reflexivity; apply twoPrisms_wf|]. split; [reflexivity|]. split.
  - apply C22_instance.
  - destruct (writeFPMAtext exactQ thirds) as [s| | |] eqn:E; [|vm_compute in E; discriminate..]. vm_compute in E. injection E as <-.
    eexists; eexists. split; [reflexivity|]. split; [vm_compute; reflexivity|]. split; reflexivity.
Qed.

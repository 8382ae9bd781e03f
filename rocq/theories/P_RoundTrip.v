(** FPMA round trip. *)
From Coq Require Import Permutation.
From Verif Require Import P_Base M_Conn S_Conn P_Conn M_Mesh M_Apply S_Mesh P_Apply M_Connections
  S_Connections P_Connections M_FPMA S_FPMA P_Poly P_FPMA P_FPMAWrite.

(** * Original-order connections of cells are the rings *)
Lemma filter_rows (is : list N) : forall ls i js,
  NoDup is -> In (i, js) (combine is ls) ->
  map snd (filter (fun c : N * N => N.eqb (fst c) i)
    (concat (map (fun p => map (fun j => (fst p, j)) (snd p)) (combine is ls)))) = js.
Proof.
  assert (Same : forall i (js : list N), map snd (filter (fun c : N * N => N.eqb (fst c) i)
             (map (fun j => (i, j)) js)) = js).
  { intros i js. induction js as [|j js IH]; simpl; [reflexivity|].
    rewrite N.eqb_refl. simpl. rewrite IH. reflexivity. }
  assert (Other : forall i a (js : list N), a <> i -> filter (fun c : N * N => N.eqb (fst c) i)
             (map (fun j => (a, j)) js) = []).
  { intros i a js Hne. induction js as [|j js IH]; simpl; [reflexivity|].
    destruct (N.eqb_spec a i); [contradiction|]. assumption. }
  induction is as [|a is IH]; intros [|l ls] i js ND H; simpl in H; try contradiction.
  inv ND. simpl. rewrite filter_app, map_app.
  destruct H as [H|H].
  - inv H. rewrite Same.
    assert (E : filter (fun c : N * N => N.eqb (fst c) i)
       (concat (map (fun p => map (fun j => (fst p, j)) (snd p)) (combine is ls))) = []).
    { clear IH. revert ls. induction is as [|b is IH]; intros [|l ls]; simpl; try reflexivity.
      rewrite filter_app, Other.
      - simpl. apply IH; [intros K; apply H2; right; assumption|inv H3; assumption].
      - intros ->. apply H2. left. reflexivity. }
    rewrite E. simpl. apply app_nil_r.
  - rewrite Other. { simpl. apply IH; assumption. }
    intros ->. apply H2. apply in_combine_l in H. assumption.
Qed.

Lemma nth_error_In_combine {A B} (l : list A) (k : list B) i a b :
  nth_error l i = Some a -> nth_error k i = Some b -> In (a, b) (combine l k).
Proof. intros H1 H2. apply nth_error_In with i. apply nth_error_combine. auto. Qed.

Lemma connections_original_visits {V} (m : Mesh V) s t :
  wf_mesh m -> t < s <= m_dim m ->
  exists res, connections_original m s t = Ok res /\ length res = n_elems m s /\
    forall i js, i < n_elems m s -> visits m s t (N.of_nat i) js -> nth_error res i = Some (first_occ js).
Proof.
  intros W Hst.
  destruct (connections_original_spec m s t W ltac:(lia) ltac:(lia)) as (calls & res & Ec & Er & L & H).
  destruct (apply_spec m s t W ltac:(lia) ltac:(lia)) as (ls & HF & Ea).
  rewrite Nat.max_l, Nat.min_r in * by lia. rewrite Ea in Ec. inv Ec.
  exists res. split; [assumption|]. split; [assumption|].
  intros i js Hi Hv.
  destruct (nth_error res i) as [l|] eqn:El; [|apply nth_error_None in El; lia].
  destruct (H i l El) as (-> & _ & _). do 2 f_equal.
  assert (Hi' : nth_error (seqN (n_elems m s)) i = Some (N.of_nat i)) by (apply nth_error_seqN; assumption).
  destruct (nth_error ls i) as [js'|] eqn:Ej.
  2:{ apply nth_error_None in Ej. apply Forall2_length' in HF. rewrite seqN_length in HF. lia. }
  pose proof (proj1 (Forall2_nth _ _ _) HF) as [_ HF'].
  specialize (HF' i _ _ Hi' Ej).
  assert (js = js').
  { pose proof (visits_run m s t _ _ Hv ltac:(lia)) as R1.
    pose proof (visits_run m s t _ _ HF' ltac:(lia)) as R2. congruence. }
  subst js'.
  replace (map (fun p => map (fun j => if t <? s then (fst p, j) else (j, fst p)) (snd p))
            (combine (seqN (n_elems m s)) ls))
     with (map (fun p => map (fun j => (fst p, j)) (snd p)) (combine (seqN (n_elems m s)) ls)).
  - apply filter_rows; [apply NoDup_seqN|]. eapply nth_error_In_combine; eassumption.
  - apply map_ext. intros p. apply map_ext. intros j. replace (t <? s) with true; [reflexivity|].
    symmetry. apply Nat.ltb_lt. lia.
Qed.

Lemma visits_one {V} (m : Mesh V) k i js : children m (S k) i js -> visits m (S k) k i js.
Proof.
  intros H. replace js with (concat (map (fun j => [j]) js)).
  - apply visits_step with js; [lia|assumption|].
    clear H. induction js as [|j js IH]; simpl; constructor; [constructor|assumption].
  - clear H. induction js as [|j js IH]; simpl; [reflexivity|]. rewrite IH. reflexivity.
Qed.

Lemma connections_original_rings {V} (m : Mesh V) :
  wf_mesh m -> m_dim m = 3 ->
  exists res, connections_original m 3 2 = Ok res /\ length res = length (m_cells m) /\
    forall i fs, ring m (N.of_nat i) fs -> nth_error res i = Some fs.
Proof.
  intros W D. destruct (connections_original_visits m 3 2 W ltac:(lia)) as (res & E & L & H).
  assert (Ec : n_elems m 3 = length (m_cells m)) by (rewrite <- (n_elems_cell m) by lia; rewrite D; reflexivity).
  exists res. split; [assumption|]. split; [congruence|].
  intros i fs R.
  assert (Hc : children m 3 (N.of_nat i) fs) by (unfold children; rewrite D; exact R).
  rewrite (H i fs).
  - f_equal. apply first_occ_NoDup. destruct R as (? & ? & _ & _ & _ & ND). assumption.
  - rewrite Ec. destruct R as (f0 & r & _ & Hn & _). rewrite Nat2N.id in Hn. apply nth_error_Some. congruence.
  - apply visits_one. assumption.
Qed.

(** * A loaded mesh is well formed *)
Record file_wf {C} (F : fpma_file C) : Prop := {
  fw_ok : file_ok F;
  fw_poly : forall p, In p (ff_polys F) ->
            polygon p /\ forall v, In v p -> (v < N.of_nat (length (ff_verts F)))%N
}.

Lemma side_in vs i a b : side vs i a b -> In a vs /\ In b vs.
Proof. intros [H1 H2]. split; eapply nth_error_In; eassumption. Qed.

Lemma load_wf {C} reserve (F : fpma_file C) rest :
  file_wf F -> (reserve = 0 \/ forall p, In p (ff_polys F) -> length p <= reserve) ->
  exists m, loadFPMA reserve (layout F ++ rest) (emptyMesh 3) = Ok m /\ wf_mesh m.
Proof.
  intros [FO FP] HR.
  destruct (load_spec reserve F rest FO HR)
    as (m & edges & E & D & Ev & Em & _ & F2 & Un & Cov & Lc & Ri & _).
  exists m. split; [assumption|].
  pose proof (Forall2_length' _ _ _ F2) as LF.
  assert (FS : forall f, In f (m_faces m) -> exists p, In p (ff_polys F) /\ sides_of edges (f_subs f) p).
  { intros f Hf. apply In_nth_error in Hf as [i Hi].
    destruct (nth_error (ff_polys F) i) as [p|] eqn:Ep.
    - exists p. split; [eapply nth_error_In; eassumption|].
      pose proof (proj1 (Forall2_nth _ _ _) F2) as [_ F2']. eapply F2'; eassumption.
    - apply nth_error_None in Ep. assert (i < length (m_faces m)) by (apply nth_error_Some; congruence). lia. }
  assert (SJ : forall f e, In f (m_faces m) -> In e (f_subs f) -> exists p i a b,
             In p (ff_polys F) /\ side p i a b /\ joins edges e a b).
  { intros f e Hf He. destruct (FS f Hf) as (p & Hp & L & S).
    apply In_nth_error in He as [i Hi].
    assert (i < length (f_subs f)) by (apply nth_error_Some; congruence).
    destruct (side_total p i ltac:(lia)) as (a & b & Hs). exists p, i, a, b. eauto. }
  constructor.
  - lia.
  - rewrite Em, D. reflexivity.
  - intros k i js Hk Hs. rewrite D in Hk. unfold subs in Hs. rewrite D in Hs.
    assert (k = 1 \/ k = 2) as [->| ->] by lia; simpl in Hs.
    + (* edges *)
      rewrite Em in Hs. simpl in Hs. pose proof (vat_ok_lt _ _ _ Hs) as Hlt. apply vat_ok in Hs.
      destruct (Cov (N.to_nat i)) as (f & Hf & Hi); [lia|]. rewrite N2Nat.id in Hi.
      destruct (SJ f i Hf Hi) as (p & j & a & b & Hp & Hsd & J).
      destruct (FP p Hp) as [Po Hv].
      pose proof (side_ne p j a b Po Hsd) as Hab. destruct (side_in _ _ _ _ Hsd) as [Ia Ib].
      assert (HH : forall v, In v js -> v = a \/ v = b).
      { destruct J as [J|J]; rewrite J in Hs; inv Hs; simpl; intuition. }
      split; [|split].
      * destruct J as [J|J]; rewrite J in Hs; inv Hs; repeat constructor; simpl; intuition.
      * intros v Hv'. unfold n_elems. simpl. rewrite Ev. apply Hv. destruct (HH v Hv') as [->| ->]; assumption.
      * intros _. destruct J as [J|J]; rewrite J in Hs; inv Hs; reflexivity.
    + (* faces *)
      apply bind_ok in Hs as (f & Hf & Hs). inv Hs. apply vat_ok, nth_error_In in Hf.
      destruct (FS f Hf) as (p & Hp & S). destruct (FP p Hp) as [Po _].
      split; [eapply sides_NoDup; eassumption|]. split; [|discriminate].
      intros e He. destruct (SJ f e Hf He) as (_ & _ & a & b & _ & _ & J).
      unfold n_elems. rewrite D. simpl. rewrite Em. simpl. apply joins_lt in J. lia.
  - intros c Hc. destruct (nth_error (ff_cells F) (N.to_nat c)) as [fs|] eqn:Ef.
    + exists fs. apply Ri. assumption.
    + apply nth_error_None in Ef. lia.
Qed.

(** * The round trip *)
Definition mesh_edges {V} (m : Mesh V) : list (list N) := nth 0 (m_mid m) [].

Section RT.
Context {C : Type}.
Variable m : Mesh (C * C * C).
Hypothesis W : wf_mesh m.
Hypothesis D : m_dim m = 3.
Hypothesis B : forall f, In f (m_faces m) -> exists vs, bounds (mesh_edges m) (f_subs f) vs.
Hypothesis SF : (N.of_nat (length (m_faces m)) <= INVALID)%N.
Hypothesis SC : (N.of_nat (length (m_cells m)) <= INVALID)%N.

Lemma faceVert_ex fs : incl fs (m_faces m) ->
  exists fv, mapM (fun f => indexFace (mesh_edges m) (f_subs f)) fs = Ok fv /\
    Forall2 (fun f vs => bounds (mesh_edges m) (f_subs f) vs) fs fv.
Proof.
  induction fs as [|f fs IH]; intros H.
  - exists []. split; [reflexivity|constructor].
  - destruct IH as (fv & E & HF). { intros x Hx; apply H; right; assumption. }
    destruct (B f) as (vs & Hvs). { apply H; left; reflexivity. }
    destruct (indexFace_spec _ _ _ Hvs) as (vs' & _ & _ & _ & E' & SP & _).
    exists (vs' :: fv). cbn [mapM]. rewrite E'. cbn [bind]. rewrite E. cbn [bind].
    split; [reflexivity|]. constructor; [|assumption]. eapply bounds_same; eassumption.
Qed.

Lemma two_cells f l :
  NoDup l -> (forall c, In c l -> exists fs, ring m c fs /\ In f fs) -> length l <= 2.
Proof.
  intros ND H.
  assert (Hs : forall c, In c l -> exists g, succ_face m c f g).
  { intros c Hc. destruct (H c Hc) as (fs & (f0 & r & -> & _ & CC & _) & Hf).
    revert CC Hf. generalize (f0 :: r) as k. intros k. revert f0.
    induction k as [|a [|b k] IH]; intros f0 CC Hf; simpl in Hf.
    - contradiction.
    - destruct Hf as [<-|[]]. simpl in CC. eauto.
    - destruct CC as [C1 C2]. destruct Hf as [<-|Hf]; [eauto|]. eapply IH; eassumption. }
  destruct l as [|c l]; [simpl; lia|].
  destruct (Hs c (or_introl eq_refl)) as (g & fc & Hfc & _).
  assert (HI : incl (c :: l) [cellLeft (bc (f_conn fc)); cellRight (bc (f_conn fc))]).
  { intros x Hx. destruct (Hs x Hx) as (g' & fc' & Hfc' & Hn).
    assert (fc' = fc) by congruence. subst fc'. unfold getNextBElem in Hn.
    destruct (N.eqb_spec x INVALID); [discriminate|].
    destruct (N.eqb_spec x (cellRight (bc (f_conn fc)))); [right; left; congruence|].
    destruct (N.eqb_spec x (cellLeft (bc (f_conn fc)))); [left; congruence|discriminate]. }
  apply NoDup_incl_length in HI; [|assumption]. exact HI.
Qed.

Lemma mapM_rows (tbl : list (list N)) : mapM (fun i => vat tbl i) (seqN (length tbl)) = Ok tbl.
Proof.
  apply mapM_ok. apply Forall2_nth. rewrite seqN_length. split; [reflexivity|].
  intros i a b Ha Hb. assert (Hi : i < length tbl) by (apply nth_error_Some; congruence).
  rewrite nth_error_seqN in Ha by assumption. inv Ha. apply vat_ok. rewrite Nat2N.id. assumption.
Qed.

Lemma write_spec : exists fv cf,
  writeFPMA m = Ok (layout (mkFile (m_verts m) fv cf) ++ [Tn 0%N]) /\
  Forall2 (fun f vs => bounds (mesh_edges m) (f_subs f) vs) (m_faces m) fv /\
  length cf = length (m_cells m) /\
  (forall c fs, ring m c fs -> nth_error cf (N.to_nat c) = Some fs).
Proof.
  destruct (faceVert_ex (m_faces m) (incl_refl _)) as (fv & E1 & HF).
  destruct (connections_original_rings m W D) as (cf & E2 & L2 & H2).
  exists fv, cf. split; [|split; [assumption|split; [assumption|]]].
  - unfold writeFPMA, indexMeshFPMA, edges_of. unfold mesh_edges in E1. rewrite E1. cbn [bind].
    rewrite E2. cbn [bind fst snd]. unfold emitFPMA.
    pose proof (Forall2_length' _ _ _ HF) as LF.
    rewrite LF, mapM_rows. cbn [bind]. rewrite <- L2, mapM_rows. cbn [bind].
    unfold layout, num, counted, num. cbn [ff_verts ff_polys ff_cells].
    f_equal. rewrite <- !app_assoc. cbn [app]. f_equal. f_equal.
    clear. induction (m_verts m) as [|[[x y] z] l IH]; simpl; [reflexivity|]. rewrite IH. reflexivity.
  - intros c fs R. apply H2. rewrite N2Nat.id. assumption.
Qed.

Lemma written_file_ok fv cf :
  Forall2 (fun f vs => bounds (mesh_edges m) (f_subs f) vs) (m_faces m) fv ->
  length cf = length (m_cells m) ->
  (forall c fs, ring m c fs -> nth_error cf (N.to_nat c) = Some fs) ->
  file_wf (mkFile (m_verts m) fv cf).
Proof.
  intros HF L H. pose proof (Forall2_length' _ _ _ HF) as LF.
  assert (Row : forall i fs, nth_error cf i = Some fs -> ring m (N.of_nat i) fs).
  { intros i fs Hi. assert (Hlt : i < length cf) by (apply nth_error_Some; congruence).
    destruct (wf_ring m W (N.of_nat i)) as (fs' & R); [lia|].
    pose proof (H _ _ R) as E. rewrite Nat2N.id in E. congruence. }
  constructor; [constructor|]; cbn [ff_verts ff_polys ff_cells].
  - lia.
  - lia.
  - intros fs Hfs. apply In_nth_error in Hfs as [i Hi]. apply Row in Hi as R.
    split; [|split].
    + destruct R as (? & ? & -> & _). discriminate.
    + destruct R as (? & ? & _ & _ & _ & ND). assumption.
    + intros f Hf. rewrite <- LF. eapply ring_lt; eassumption.
  - intros f. apply (two_cells f).
    + unfold listing. apply NoDup_filter. apply NoDup_seqN.
    + intros c Hc. unfold listing in Hc. apply filter_In in Hc as [Hc Hf].
      apply in_seqN in Hc. apply existsb_Neqb in Hf.
      exists (nth (N.to_nat c) cf []). split; [|assumption].
      rewrite <- (N2Nat.id c) at 1. apply Row. apply nth_error_nth'. lia.
  - intros vs Hvs. apply In_nth_error in Hvs as [i Hi].
    assert (Hlt : i < length fv) by (apply nth_error_Some; congruence).
    destruct (nth_error (m_faces m) i) as [f|] eqn:Ef; [|apply nth_error_None in Ef; lia].
    pose proof (proj1 (Forall2_nth _ _ _) HF) as [_ HF']. specialize (HF' i f vs Ef Hi).
    destruct HF' as (P & es & _ & _ & Ls & S). split; [assumption|].
    intros v Hv. apply In_nth_error in Hv as [j Hj].
    assert (j < length vs) by (apply nth_error_Some; congruence).
    destruct (side_total vs j ltac:(lia)) as (a & b & Hs).
    assert (a = v) by (destruct Hs; congruence). subst a.
    destruct (nth_error es j) as [e|] eqn:Ee; [|apply nth_error_None in Ee; lia].
    specialize (S j e v b Ee Hs).
    pose proof (wf_subs m W 1 e) as W1. unfold subs in W1. rewrite D in W1. simpl in W1.
    destruct S as [S|S]; apply vat_ok in S;
      destruct (W1 _ ltac:(lia) S) as (_ & W2 & _); unfold n_elems in W2; simpl in W2;
      apply W2; simpl; auto.
Qed.

Lemma roundtrip reserve :
  (reserve = 0 \/ forall f, In f (m_faces m) -> length (f_subs f) <= reserve) ->
  exists ts m', writeFPMA m = Ok ts /\ loadFPMA reserve ts (emptyMesh 3) = Ok m' /\
    wf_mesh m' /\ m_dim m' = 3 /\ m_verts m' = m_verts m /\
    length (m_faces m') = length (m_faces m) /\ length (m_cells m') = length (m_cells m) /\
    (forall c fs, ring m' c fs <-> ring m c fs) /\
    (forall i f f' vs, nth_error (m_faces m) i = Some f -> nth_error (m_faces m') i = Some f' ->
       (bounds (mesh_edges m') (f_subs f') vs <-> bounds (mesh_edges m) (f_subs f) vs)).
Proof.
  intros HR. destruct write_spec as (fv & cf & Ew & HF & L & H).
  pose proof (written_file_ok fv cf HF L H) as FW.
  assert (HR' : reserve = 0 \/ forall p, In p fv -> length p <= reserve).
  { destruct HR as [?|HR]; [auto|right]. intros p Hp. apply In_nth_error in Hp as [i Hi].
    pose proof (proj1 (Forall2_nth _ _ _) HF) as [LF HF'].
    destruct (nth_error (m_faces m) i) as [f|] eqn:Ef.
    - destruct (HF' i f p Ef Hi) as (_ & es & Pm & _ & Ls & _).
      rewrite <- Ls, <- (Permutation_length Pm). apply HR. eapply nth_error_In; eassumption.
    - apply nth_error_None in Ef. assert (i < length fv) by (apply nth_error_Some; congruence). lia. }
  destruct (load_wf reserve (mkFile (m_verts m) fv cf) [Tn 0%N] FW HR') as (m' & E' & W').
  destruct (load_spec reserve (mkFile (m_verts m) fv cf) [Tn 0%N] (fw_ok _ FW) HR')
    as (m2 & edges & E2 & D2 & Ev & Em & _ & F2 & Un & Cov & Lc & Ri & _).
  rewrite E' in E2. inv E2. cbn [ff_verts ff_polys ff_cells] in *.
  eexists. exists m2. split; [exact Ew|]. split; [exact E'|]. split; [assumption|].
  split; [assumption|]. split; [assumption|].
  split; [apply Forall2_length' in F2, HF; lia|]. split; [lia|].
  assert (Fwd : forall c fs, ring m c fs -> ring m2 c fs) by (intros c fs R; apply Ri, H, R).
  split.
  - intros c fs. split; [|apply Fwd]. intros R.
    assert (Hc : (c < N.of_nat (length (m_cells m)))%N).
    { destruct R as (? & ? & _ & Hn & _).
      assert (N.to_nat c < length (m_cells m2)) by (apply nth_error_Some; congruence). lia. }
    destruct (wf_ring m W c Hc) as (fs' & R'). pose proof (ring_det _ _ _ _ R (Fwd _ _ R')). congruence.
  - intros i f f' vs Hf Hf'.
    pose proof (proj1 (Forall2_nth _ _ _) HF) as [LF HF'].
    pose proof (proj1 (Forall2_nth _ _ _) F2) as [_ F2'].
    destruct (nth_error fv i) as [p|] eqn:Ep.
    2:{ apply nth_error_None in Ep. assert (i < length (m_faces m)) by (apply nth_error_Some; congruence). lia. }
    specialize (HF' i f p Hf Ep). specialize (F2' i f' p Hf' Ep).
    assert (Em' : mesh_edges m2 = edges) by (unfold mesh_edges; rewrite Em; reflexivity).
    assert (B' : bounds (mesh_edges m2) (f_subs f') p).
    { destruct HF' as [P _]. split; [assumption|]. exists (f_subs f').
      rewrite Em'. split; [reflexivity|]. split; [|assumption]. eapply sides_NoDup; eassumption. }
    (* two polygons bounded by the same edges are the same polygon: the walk is deterministic *)
    assert (Uniq : forall ed es x y, bounds ed es x -> bounds ed es y ->
              exists u, same_polygon x u /\ same_polygon y u).
    { intros ed es x y Bx By.
      destruct (indexFace_spec _ _ _ Bx) as (u & _ & _ & _ & Eu & Sx & _).
      destruct (indexFace_spec _ _ _ By) as (u' & _ & _ & _ & Eu' & Sy & _).
      assert (u = u') by congruence. subst u'. eauto. }
    split; intros Bv.
    + destruct (Uniq _ _ _ _ Bv B') as (u & S1 & S2).
      eapply bounds_same; [apply same_polygon_sym; exact S1|]. eapply bounds_same; [exact S2|assumption].
    + destruct (Uniq _ _ _ _ Bv HF') as (u & S1 & S2).
      eapply bounds_same; [apply same_polygon_sym; exact S1|]. eapply bounds_same; [exact S2|assumption].
Qed.
End RT.

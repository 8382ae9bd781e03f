(** C27, C28 and the 3D part of C26: the 3D VTK reader. *)
From Coq Require Import String Permutation.
From Verif Require Import P_Base M_Conn S_Conn P_Conn M_Mesh S_Mesh M_Text P_Text M_FPMA S_FPMA P_Poly P_FPMA P_FPMAWrite
  M_VTK S_VTK P_Bnd P_VTK P_VTK3 T_VTK.
Local Open Scope list_scope.

Lemma bounds_Permutation edges es es' p : Permutation es es' -> bounds edges es p -> bounds edges es' p.
Proof.
  intros Pm (P & es1 & P1 & ND & S). split; [assumption|]. exists es1. splits; auto.
  rewrite <- Pm. assumption.
Qed.

Lemma Forall2_compose {A B C} (R : A -> B -> Prop) (S : B -> C -> Prop) (T : A -> C -> Prop) l k j :
  (forall a b c, In b k -> R a b -> S b c -> T a c) -> Forall2 R l k -> Forall2 S k j -> Forall2 T l j.
Proof.
  intros H F. revert j. induction F as [|a b l k HR F IH]; intros j G; inv G; constructor.
  - eapply H; eauto. left. reflexivity.
  - apply IH; [|assumption]. intros; eapply H; eauto. right. assumption.
Qed.

Lemma filter_Forall2_length {A B} (R : A -> B -> Prop) (p : A -> bool) (q : B -> bool) l k :
  (forall a b, R a b -> p a = q b) -> Forall2 R l k -> length (filter p l) = length (filter q k).
Proof.
  intros H F. induction F as [|a b l k HR F IH]; [reflexivity|]. simpl. rewrite (H a b HR).
  destruct (q b); simpl; congruence.
Qed.

Section Read3.
Context {C : Type} (F : vtk_file C) (reserve : nat) (l1 l2 rest : list (vtok C)) (m0 : Mesh (C * C * C)) (old : list etype).
Hypothesis G : grid3_ok F.
Hypothesis HR : reserve = 0 \/ forall vs p, In vs (vf_cells F) -> In p (faces_of vs) -> length p <= reserve.
Hypothesis H1 : one_line l1.
Hypothesis H2 : one_line l2.
Hypothesis HD : m_dim m0 = 3.
Hypothesis HM : length (m_mid m0) = 1.

Lemma read3_all :
  exists m types edges ess,
    loadVTK3 reserve (vtk_header l1 l2 ++ vtk_body F ++ rest) m0 old = Ok (m, types) /\
    (m_dim m = 3 /\ m_mid m = [edges] /\ m_verts m = vf_pts F /\ m_bcells m = m_bcells m0) /\
    length (m_cells m) = length (vf_cells F) /\
    Forall2 (fun es vs => Forall2 (fun f p => exists fc, nth_error (m_faces m) (N.to_nat f) = Some fc /\
                                                         bounds edges (f_subs fc) p) es (faces_of vs))
            ess (vf_cells F) /\
    (forall c es, nth_error ess (N.to_nat c) = Some es -> ring m c es) /\
    (forall e e' a b, joins edges e a b -> joins edges e' a b -> e = e') /\
    (forall i j f g p q, nth_error (m_faces m) i = Some f -> nth_error (m_faces m) j = Some g ->
       bounds edges (f_subs f) p -> bounds edges (f_subs g) q -> same_sides p q -> i = j) /\
    (forall i, i < length (m_faces m) -> exists es, In es ess /\ In (N.of_nat i) es) /\
    (forall i, i < length edges -> exists f, In f (m_faces m) /\ In (N.of_nat i) (f_subs f)) /\
    (forall i f, nth_error (m_faces m) i = Some f ->
       cellLeft (bc (f_conn f)) = nth 0 (listing ess (N.of_nat i)) INVALID /\
       cellRight (bc (f_conn f)) = nth 1 (listing ess (N.of_nat i)) INVALID /\
       length (listing ess (N.of_nat i)) <= 2) /\
    (forall es f e, In es ess -> In f es -> In e (fsubs (m_faces m) f) ->
       length (filter (fun g => existsb (N.eqb e) (fsubs (m_faces m) g)) es) = 2) /\
    (length types = length (vf_cells F) /\
    (forall i, nth_error types i =
      match nth_error (vf_types F) i with
      | Some code => match vtkType3 code with
                     | Some e => Some e
                     | None => nth_error (vresize (length (vf_cells F)) Tdefault old) i end
      | None => nth_error (vresize (length (vf_cells F)) Tdefault old) i
      end)).
Proof.
  destruct (load3_spec F reserve l1 l2 rest m0 old G HR H1 H2 HD HM)
    as (m & types & its & ess & edges & eem & fem & E & D & M & B & V & Cs & I & TL & T).
  destruct I as [Ie Ib If Ic Iv]. pose proof Ib as [B1 B2 B3 B4 B5 B6].
  assert (L1 : length its = length (vf_cells F)) by (apply Forall2_length' in If; assumption).
  assert (LE : length ess = length (vf_cells F)) by (apply Forall2_length' in B2; congruence).
  assert (T2 : two key3 its) by (eapply faces_two; [exact G|rewrite app_nil_r; reflexivity|exact If]).
  assert (Keyed : forall es f, In es ess -> In f es -> (f < flen (m_faces m))%N).
  { intros es f Hes Hf. destruct (Forall2_In_l _ _ _ _ B2 Hes) as (items & _ & _ & _ & K).
    destruct (Forall2_In_l _ _ _ _ K Hf) as (it & _ & K' & _). assumption. }
  assert (Two : forall e, length (listing ess e) <= 2).
  { intros e. destruct (N.lt_ge_cases e (flen (m_faces m))) as [He|He].
    - eapply (listing_two key3 0); eassumption.
    - destruct (listing ess e) as [|x r] eqn:El; [simpl; lia|exfalso].
      assert (K : In x (listing ess e)) by (rewrite El; left; reflexivity).
      apply in_listing in K as (fs & Hfs & Hin). apply nth_error_In in Hfs.
      specialize (Keyed _ _ Hfs Hin). lia. }
  destruct (rings_of_calls m ess Cs) as [R LR].
  - pose proof (g3_size _ G). lia.
  - intros es Hes. destruct (Forall2_In_l _ _ _ _ B2 Hes) as (items & Hi & A & B' & K).
    split; [|split; [assumption|intros; eapply Keyed; eassumption]].
    intros ->. inversion K. congruence.
  - assumption.
  - intros i _. apply B3.
  - exists m, types, edges, ess. splits; auto.
    + rewrite Cs, map_length. assumption.
    + eapply Forall2_compose; [|exact B2|exact If].
      intros es items vs _ (_ & _ & K) Bn. eapply Forall2_compose; [|exact K|exact Bn].
      intros f it p _ [K1 K2] Bp. exists (fat (m_faces m) f).
      split; [apply vat_ok, vat_fat; assumption|]. unfold key3 in K2. apply face_key_iff in K2.
      eapply bounds_Permutation; [symmetry; exact K2|assumption].
    + intros e e' a b. eapply em_inv_unique. exact Ie.
    + intros i j f g p q Hi Hj Bp Bq S.
      assert (Pm : Permutation (f_subs f) (f_subs g)) by (eapply same_sides_perm; eassumption).
      assert (N.of_nat i = N.of_nat j); [|lia].
      assert (Lt : forall k h, nth_error (m_faces m) k = Some h -> (N.of_nat k < flen (m_faces m))%N).
      { intros k h Hk. assert (k < length (m_faces m)) by (apply nth_error_Some; congruence). unfold flen. lia. }
      eapply fm_inv_uniq; [exact B1|eapply Lt; eassumption|eapply Lt; eassumption|].
      unfold fsubs. rewrite (fat_some _ _ _ Hi), (fat_some _ _ _ Hj). apply face_key_iff. assumption.
    + intros i Hi. specialize (B4 (N.of_nat i) ltac:(unfold flen; lia)).
      destruct (listing ess (N.of_nat i)) as [|x r] eqn:El; [contradiction|].
      assert (K : In x (listing ess (N.of_nat i))) by (rewrite El; left; reflexivity).
      apply in_listing in K as (fs & Hfs & Hin). exists fs. split; [eapply nth_error_In; eassumption|assumption].
    + intros i Hi. destruct (Iv i Hi) as (items & it & A1 & A2 & A3).
      apply In_nth_error in A1 as [c Hc].
      apply Forall2_nth in B2 as [LB B2].
      destruct (nth_error ess c) as [es|] eqn:Ee.
      2:{ apply nth_error_None in Ee. assert (c < length its) by (apply nth_error_Some; congruence). lia. }
      destruct (B2 _ _ _ Ee Hc) as (_ & _ & K).
      apply In_nth_error in A2 as [j Hj]. apply Forall2_nth in K as [LK K].
      destruct (nth_error es j) as [f|] eqn:Ef.
      2:{ apply nth_error_None in Ef. assert (j < length items) by (apply nth_error_Some; congruence). lia. }
      destruct (K _ _ _ Ef Hj) as [K1 K2]. exists (fat (m_faces m) f). split.
      * eapply nth_error_In. apply vat_ok. apply vat_fat. assumption.
      * unfold key3 in K2. apply face_key_iff in K2. fold (fsubs (m_faces m) f). rewrite K2. assumption.
    + intros i f Hf. destruct (LR i f Hf) as [A B']. auto.
    + intros es f e Hes Hf He. apply In_nth_error in Hes as [c Hc].
      apply Forall2_nth in B2 as [LB B2].
      destruct (nth_error its c) as [items|] eqn:Ei.
      2:{ apply nth_error_None in Ei. assert (c < length ess) by (apply nth_error_Some; congruence). lia. }
      destruct (B2 _ _ _ Hc Ei) as (_ & _ & K).
      assert (Q : forall g it, keyed key3 (m_faces m) g it -> Permutation (fsubs (m_faces m) g) it).
      { intros g it [_ K2]. apply face_key_iff. exact K2. }
      destruct (Forall2_In_l _ _ _ _ K Hf) as (it & Hit & Kf).
      rewrite <- (Ic items it e); [|eapply nth_error_In; eassumption|assumption|rewrite <- (Q _ _ Kf); assumption].
      eapply filter_Forall2_length; [|exact K]. intros g it' Kg. apply eq_iff_eq_true. rewrite !existsb_Neqb.
      rewrite (Q _ _ Kg). reflexivity.
Qed.
End Read3.

(** ** C27: the cells that are built are closed polyhedra with the documented faces. *)
(** The [i]-th face met on the boundary walk of a cell is bounded by the [i]-th documented face polygon of
    the cell's shape, and every edge of the cell belongs to exactly two of its faces. *)
Theorem C27_cells_closed {C} (F : vtk_file C) reserve l1 l2 rest (m0 : Mesh (C * C * C)) old :
  grid3_ok F -> (reserve = 0 \/ forall vs p, In vs (vf_cells F) -> In p (faces_of vs) -> length p <= reserve) ->
  one_line l1 -> one_line l2 -> m_dim m0 = 3 -> length (m_mid m0) = 1 ->
  exists m types edges,
    loadVTK3 reserve (vtk_header l1 l2 ++ vtk_body F ++ rest) m0 old = Ok (m, types) /\ m_mid m = [edges] /\
    forall c vs, nth_error (vf_cells F) (N.to_nat c) = Some vs ->
      exists es fs, ring m c es /\ Forall2 (fun f fc => nth_error (m_faces m) (N.to_nat f) = Some fc) es fs /\
        Forall2 (fun fc p => bounds edges (f_subs fc) p) fs (faces_of vs) /\
        forall fc e, In fc fs -> In e (f_subs fc) ->
          length (filter (fun g => existsb (N.eqb e) (f_subs g)) fs) = 2.
Proof.
  intros G HR H1 H2 HD HM.
  destruct (read3_all F reserve l1 l2 rest m0 old G HR H1 H2 HD HM)
    as (m & types & edges & ess & E & (D & M & _) & _ & S & R & _ & _ & _ & _ & _ & Cl & _).
  exists m, types, edges. splits; auto. intros c vs Hc.
  pose proof S as S'. apply Forall2_nth in S' as [L S'].
  destruct (nth_error ess (N.to_nat c)) as [es|] eqn:Ee.
  2:{ apply nth_error_None in Ee. assert (N.to_nat c < length (vf_cells F)) by (apply nth_error_Some; congruence). lia. }
  specialize (S' _ _ _ Ee Hc). exists es, (map (fat (m_faces m)) es).
  assert (K : Forall2 (fun f fc => nth_error (m_faces m) (N.to_nat f) = Some fc) es (map (fat (m_faces m)) es)).
  { rewrite Forall2_map_r. clear - S'. induction S' as [|f p es ps (fc & H & _) _ IH]; constructor; auto.
    rewrite H. unfold fat. erewrite nth_error_nth by eassumption. reflexivity. }
  splits; auto.
  - rewrite Forall2_map_l. eapply Forall2_mono; [|exact S']. intros f p (fc & H & B).
    unfold fat. erewrite nth_error_nth by eassumption. assumption.
  - intros fc e Hfc He. apply in_map_iff in Hfc as (f & <- & Hf).
    rewrite <- (Cl es f e) by (auto; eapply nth_error_In; eassumption).
    rewrite filter_map_comm, map_length. reflexivity.
Qed.
Print Assumptions C27_cells_closed.

(** ** C28: shared faces and edges are created once, with both cells attached. *)
Theorem C28_vtk3_read {C} (F : vtk_file C) reserve l1 l2 rest (m0 : Mesh (C * C * C)) old :
  grid3_ok F -> (reserve = 0 \/ forall vs p, In vs (vf_cells F) -> In p (faces_of vs) -> length p <= reserve) ->
  one_line l1 -> one_line l2 -> m_dim m0 = 3 -> length (m_mid m0) = 1 ->
  exists m types edges ess,
    loadVTK3 reserve (vtk_header l1 l2 ++ vtk_body F ++ rest) m0 old = Ok (m, types) /\
    m_dim m = 3 /\ m_mid m = [edges] /\ m_verts m = vf_pts F /\
    (* the boundary walk of cell c is the list es of its faces *)
    length (m_cells m) = length (vf_cells F) /\
    Forall2 (fun es vs => Forall2 (fun f p => exists fc, nth_error (m_faces m) (N.to_nat f) = Some fc /\
                                                         bounds edges (f_subs fc) p) es (faces_of vs))
            ess (vf_cells F) /\
    (forall c es, nth_error ess (N.to_nat c) = Some es -> ring m c es) /\
    (* one edge per vertex pair; one face per polygon; nothing superfluous *)
    (forall e e' a b, joins edges e a b -> joins edges e' a b -> e = e') /\
    (forall i j f g p q, nth_error (m_faces m) i = Some f -> nth_error (m_faces m) j = Some g ->
       bounds edges (f_subs f) p -> bounds edges (f_subs g) q -> same_sides p q -> i = j) /\
    (forall i, i < length (m_faces m) -> exists es, In es ess /\ In (N.of_nat i) es) /\
    (forall i, i < length edges -> exists f, In f (m_faces m) /\ In (N.of_nat i) (f_subs f)) /\
    (* the sides of a face: the first and the second cell that has it, in file order *)
    (forall i f, nth_error (m_faces m) i = Some f ->
       cellLeft (bc (f_conn f)) = nth 0 (listing ess (N.of_nat i)) INVALID /\
       cellRight (bc (f_conn f)) = nth 1 (listing ess (N.of_nat i)) INVALID /\
       length (listing ess (N.of_nat i)) <= 2).
Proof.
  intros G HR H1 H2 HD HM.
  destruct (read3_all F reserve l1 l2 rest m0 old G HR H1 H2 HD HM)
    as (m & types & edges & ess & E & (D & M & V & _) & A1 & A2 & A3 & A4 & A5 & A6 & A7 & A8 & _).
  exists m, types, edges, ess. splits; auto.
Qed.
Print Assumptions C28_vtk3_read.

Theorem C26_types3 {C} (F : vtk_file C) reserve l1 l2 rest (m0 : Mesh (C * C * C)) old :
  grid3_ok F -> (reserve = 0 \/ forall vs p, In vs (vf_cells F) -> In p (faces_of vs) -> length p <= reserve) ->
  one_line l1 -> one_line l2 -> m_dim m0 = 3 -> length (m_mid m0) = 1 ->
  exists m types,
    loadVTK3 reserve (vtk_header l1 l2 ++ vtk_body F ++ rest) m0 old = Ok (m, types) /\
    length types = length (vf_cells F) /\
    (forall i code t, nth_error (vf_types F) i = Some code -> vtk_code3 code t -> nth_error types i = Some t) /\
    (forall i code, nth_error (vf_types F) i = Some code -> (forall t, ~ vtk_code3 code t) ->
       nth_error types i = Some (nth i old Tdefault)).
Proof.
  intros G HR H1 H2 HD HM.
  destruct (read3_all F reserve l1 l2 rest m0 old G HR H1 H2 HD HM)
    as (m & types & edges & ess & E & _ & _ & _ & _ & _ & _ & _ & _ & _ & _ & L & T).
  exists m, types. splits; auto.
  - intros i code t Hc Ht. apply vtkType3_iff in Ht. rewrite T, Hc, Ht. reflexivity.
  - intros i code Hc Ht. rewrite T, Hc. destruct (vtkType3 code) as [t|] eqn:Ev.
    { apply vtkType3_iff in Ev. exfalso. apply (Ht t Ev). }
    apply vresize_nth. assert (i < length (vf_types F)) by (apply nth_error_Some; congruence).
    pose proof (g3_types _ G). lia.
Qed.
Print Assumptions C26_types3.

(** A loaded grid whose vertex indices exist is a well formed mesh. *)
Theorem C28_vtk3_wf {C} (F : vtk_file C) reserve l1 l2 rest (m0 : Mesh (C * C * C)) old :
  grid3_ok F -> (reserve = 0 \/ forall vs p, In vs (vf_cells F) -> In p (faces_of vs) -> length p <= reserve) ->
  one_line l1 -> one_line l2 -> m_dim m0 = 3 -> length (m_mid m0) = 1 ->
  (forall vs v, In vs (vf_cells F) -> In v vs -> (v < N.of_nat (length (vf_pts F)))%N) ->
  exists m types, loadVTK3 reserve (vtk_header l1 l2 ++ vtk_body F ++ rest) m0 old = Ok (m, types) /\ wf_mesh m.
Proof.
  intros G HR H1 H2 HD HM HV.
  destruct (read3_all F reserve l1 l2 rest m0 old G HR H1 H2 HD HM)
    as (m & types & edges & ess & E & (D & M & V & _) & A1 & A2 & A3 & A4 & A5 & A6 & A7 & A8 & _).
  exists m, types. split; [assumption|].
  assert (FB : forall f, In f (m_faces m) -> exists vs p, In vs (vf_cells F) /\ In p (faces_of vs) /\ bounds edges (f_subs f) p).
  { intros f Hf. apply In_nth_error in Hf as [i Hi].
    assert (Hl : i < length (m_faces m)) by (apply nth_error_Some; congruence).
    destruct (A6 i Hl) as (es & Hes & Hin).
    destruct (Forall2_In_l _ _ _ _ A2 Hes) as (vs & Hvs & K).
    destruct (Forall2_In_l _ _ _ _ K Hin) as (p & Hp & fc & Hfc & B).
    rewrite Nat2N.id, Hi in Hfc. inv Hfc. exists vs, p. auto. }
  assert (EV : forall i ab, nth_error edges i = Some ab -> exists a b, ab = [a; b] /\ a <> b /\
            (a < N.of_nat (length (vf_pts F)))%N /\ (b < N.of_nat (length (vf_pts F)))%N).
  { intros i ab Hi. assert (Hl : i < length edges) by (apply nth_error_Some; congruence).
    destruct (A7 i Hl) as (f & Hf & Hin). destruct (FB f Hf) as (vs & p & Hvs & Hp & B).
    pose proof B as (P & es' & Pm & ND & L & S). rewrite Pm in Hin. apply In_nth_error in Hin as [j Hj].
    assert (j < length es') by (apply nth_error_Some; congruence).
    destruct (side_total p j ltac:(lia)) as (x & y & Hs).
    assert (Vx : forall z, In z p -> (z < N.of_nat (length (vf_pts F)))%N).
    { intros z Hz. apply (HV vs); [assumption|]. unfold faces_of in Hp. apply in_map_iff in Hp as (q & <- & Hq).
      apply in_map_iff in Hz as (k & <- & Hk). apply nth_In.
      destruct (g3_cell _ G vs Hvs) as [_ Hn]. destruct (shapes_checked _ Hn) as (eo & fo & _ & OK).
      destruct (ok_parts vs eo fo _ OK) as (_ & _ & _ & _ & _ & P6 & _). eapply P6; eassumption. }
    assert (Vxy : In x p /\ In y p) by (destruct Hs; split; eapply nth_error_In; eassumption).
    pose proof (side_ne p j x y P Hs) as Nxy.
    destruct (S _ _ _ _ Hj Hs) as [K|K]; rewrite Nat2N.id, Hi in K; inv K;
      [exists x, y|exists y, x]; splits; try reflexivity; try congruence; apply Vx; tauto. }
  split.
  - lia.
  - rewrite D, M. reflexivity.
  - intros k i js Hk Hs. unfold subs in Hs. rewrite D in Hs. destruct (Nat.eqb_spec k (3 - 1)) as [->|Hk2].
    + apply bind_ok in Hs as (f & Hf & Hs). injection Hs as <-. apply vat_ok in Hf.
      destruct (FB f (nth_error_In _ _ Hf)) as (vs & p & Hvs & Hp & B).
      split; [eapply bounds_NoDup; eassumption|]. split; [|lia].
      intros j Hj. unfold n_elems. rewrite D. cbn [Nat.sub Nat.eqb]. rewrite M. cbn [nth].
      destruct B as (P & es' & Pm & ND & L & S). rewrite Pm in Hj. apply In_nth_error in Hj as [t Ht].
      assert (t < length es') by (apply nth_error_Some; congruence).
      destruct (side_total p t ltac:(lia)) as (x & y & Hs).
      specialize (S _ _ _ _ Ht Hs). apply joins_lt in S. lia.
    + assert (k = 1) by lia. subst k. rewrite M in Hs. cbn [nth Nat.sub] in Hs. apply vat_ok in Hs.
      destruct (EV _ _ Hs) as (a & b & -> & Hab & Ha & Hb). split; [|split; [|reflexivity]].
      * constructor; [|constructor; [simpl; tauto|constructor]]. intros [K|[]]. congruence.
      * intros j Hj. unfold n_elems. cbn [Nat.sub Nat.eqb]. rewrite V. destruct Hj as [<-|[<-|[]]]; assumption.
  - intros c Hc. rewrite A1 in Hc. pose proof (Forall2_length' _ _ _ A2) as LS.
    destruct (nth_error ess (N.to_nat c)) as [es|] eqn:Ee; [eauto|].
    apply nth_error_None in Ee. lia.
Qed.
Print Assumptions C28_vtk3_wf.

(** C99: the tessellated VTK export of a mesh of convex polyhedra, read back. Exact real arithmetic. *)
From Coq Require Import Reals Lra Permutation List String.
Import ListNotations.
From Verif Require Import P_Base M_Conn S_Conn P_Conn M_Index M_Mesh M_Apply S_Mesh P_Apply M_Vec S_Vec P_Vec M_Geom S_Geom P_Geom
  S_Polygon P_Polygon P_Volume S_Flux P_Flux T_Flux T_Measure2 T_Normals T_Volume T_Gauss2 T_Gauss3 M_Object T_Object S_Convex P_Convex P_Convex3 T_Convex3 M_FPMA S_FPMA P_Poly P_FPMA P_Bnd
  M_VTK S_VTK M_VTKWrite S_Tess P_Tess T_VTKWrite M_VTKData S_VTKData P_VTKData T_VTKData P_VTKWrite Ex_Mesh Ex_Geom T_ConvexVTK S_ConvexFile P_ConvexFile T_ConvexFile T_Tets S_Export P_Export.
Local Open Scope nat_scope.
Local Open Scope list_scope.

Section Sums.
Context {A : Type} (h : A -> R).
Lemma sum_of_app c s1 s2 v1 v2 : length s1 = length v1 -> sum_of c (s1 ++ s2) (v1 ++ v2) = (sum_of c s1 v1 + sum_of c s2 v2)%R.
Proof.
  revert v1. induction s1 as [|a s1 IH]; intros [|v v1] L; try discriminate L.
  - unfold sum_of at 2. cbn. rewrite Rplus_0_l. reflexivity.
  - injection L as L. specialize (IH v1 L). unfold sum_of in *. cbn [app combine filter fst map]. destruct (N.eqb a c); cbn [map snd Rsum]; rewrite IH; unfold Rsum; cbn; ring.
Qed.
Lemma sum_of_repeat c a n (v : list R) : n = length v -> sum_of c (repeat a n) v = if N.eqb a c then Rsum v else 0%R.
Proof.
  intros ->. unfold sum_of. induction v as [|x v IH]; cbn [length repeat combine filter fst map]; [destruct (N.eqb a c); reflexivity|].
  destruct (N.eqb a c); cbn [map snd Rsum]; [|exact IH]. unfold Rsum in *. cbn. rewrite IH. reflexivity.
Qed.
Lemma sum_of_sources (blocks : list (list A)) : forall c0 i b, nth_error blocks i = Some b ->
  sum_of (c0 + N.of_nat i) (sources c0 (map (@length _) blocks)) (map h (concat blocks)) = Rsum (map h b).
Proof.
  assert (Z : forall blocks c0 c, (c < c0)%N -> sum_of c (sources c0 (map (@length _) blocks)) (map h (concat blocks)) = 0%R).
  { induction blocks0 as [|b bs IH]; intros c0 c Hc; [reflexivity|]. cbn [map sources concat]. rewrite map_app, sum_of_app by (rewrite repeat_length, map_length; reflexivity).
    rewrite IH by lia. rewrite sum_of_repeat by (rewrite map_length; reflexivity). destruct (N.eqb_spec c0 c); [lia|]. ring. }
  induction blocks as [|b' bs IH]; intros c0 [|i] b Hb; try discriminate Hb; cbn [map sources concat];
    rewrite map_app, sum_of_app by (rewrite repeat_length, map_length; reflexivity); rewrite sum_of_repeat by (rewrite map_length; reflexivity).
  - injection Hb as ->. rewrite Z by lia. destruct (N.eqb_spec c0 (c0 + N.of_nat 0)); [ring|lia].
  - cbn [nth_error] in Hb. replace (c0 + N.of_nat (S i))%N with ((c0 + 1) + N.of_nat i)%N by lia. rewrite (IH (c0 + 1)%N i b Hb).
    destruct (N.eqb_spec c0 (c0 + 1 + N.of_nat i)); [lia|]. ring.
Qed.
Lemma weighted_app x1 x2 y1 y2 : length x1 = length y1 -> weighted (x1 ++ x2) (y1 ++ y2) = (weighted x1 y1 + weighted x2 y2)%R.
Proof.
  revert y1. induction x1 as [|a x1 IH]; intros [|y y1] L; try discriminate L.
  - unfold weighted at 2. cbn. rewrite Rplus_0_l. reflexivity.
  - injection L as L. specialize (IH y1 L). unfold weighted, Rsum in *. cbn. rewrite IH. ring.
Qed.
Lemma weighted_repeat a (v : list R) : weighted (repeat a (length v)) v = (a * Rsum v)%R.
Proof. unfold weighted. induction v as [|x v IH]; cbn; [unfold Rsum; cbn; ring|]. unfold Rsum in *. cbn. rewrite IH. ring. Qed.
Lemma weighted_expand (blocks : list (list A)) : forall data, length data = length blocks ->
  weighted (expand (map (@length _) blocks) data) (map h (concat blocks)) = weighted data (map (fun b => Rsum (map h b)) blocks).
Proof.
  induction blocks as [|b bs IH]; intros [|d data] L; try discriminate L; [reflexivity|]. injection L as L. cbn [map expand concat].
  rewrite map_app, weighted_app by (rewrite repeat_length, map_length; reflexivity). rewrite (IH data L).
  replace (length b) with (length (map h b)) by apply map_length. rewrite weighted_repeat. unfold weighted, Rsum. cbn. reflexivity.
Qed.
End Sums.

Lemma expand_sources {A} : forall lens c0 (vals : list A) k c, length lens = length vals -> nth_error (sources c0 lens) k = Some c ->
  nth_error (expand lens vals) k = nth_error vals (N.to_nat (c - c0)).
Proof.
  intros lens c0 vals k c L H. enough (nth_error (expand lens vals) k = nth_error vals (N.to_nat (c - c0)) /\ (c0 <= c)%N) by tauto.
  revert c0 vals k c L H. induction lens as [|n r IH]; intros c0 [|v s] k c L H; try discriminate; [destruct k; discriminate|].
  cbn [sources expand] in *. destruct (Nat.lt_ge_cases k n) as [Hk|Hk].
  - rewrite nth_error_app1 in H by (rewrite repeat_length; assumption).
    rewrite nth_error_app1 by (rewrite repeat_length; assumption).
    assert (c = c0) by (apply nth_error_In, repeat_spec in H; assumption). subst c. rewrite N.sub_diag.
    split; [|lia]. cbn [N.to_nat nth_error]. apply nth_error_repeat. assumption.
  - rewrite nth_error_app2 in H by (rewrite repeat_length; assumption).
    rewrite nth_error_app2 by (rewrite repeat_length; assumption). rewrite repeat_length in *.
    apply (IH (c0 + 1)%N s) in H as [H1 H2]; [|simpl in L; congruence]. rewrite H1. split; [|lia].
    replace (N.to_nat (c - c0)) with (S (N.to_nat (c - (c0 + 1)))) by lia. reflexivity.
Qed.

(** [with_points] changes the points only. *)
Lemma wp_wf_back {V} (g : V -> point) (m : Mesh V) : wf_mesh (with_points g m) -> wf_mesh m.
Proof.
  intros [W1 W2 W3 W4]. constructor; auto.
  - intros k i js Hk Hs. assert (E : n_elems (with_points g m) (k - 1) = n_elems m (k - 1)) by (unfold n_elems, with_points; simpl; rewrite map_length; reflexivity).
    rewrite <- E. apply (W3 k i js Hk Hs).
  - intros c Hc. destruct (W4 c Hc) as (fs & Hf). exists fs. apply (proj1 (wp_ring g m c fs)). exact Hf.
Qed.

(** The incidences of a cell are its faces with their edges, each once. *)
Lemma inc_in {V} (m : Mesh V) fs is f e : incidences m fs is -> In (f, e) is ->
  In f fs /\ exists face, nth_error (m_faces m) (N.to_nat f) = Some face /\ In e (f_subs face).
Proof.
  intros H. induction H as [|f' fs fc is Hf H IH]; [intros []|]. intros Hin. apply in_app_iff in Hin as [Hin|Hin].
  - apply in_map_iff in Hin as (e' & E & He). injection E as -> ->. split; [left; reflexivity|eauto].
  - destruct (IH Hin) as [A B]. split; [right; exact A|exact B].
Qed.
Lemma inc_nodup {V} (m : Mesh V) fs is : wf_mesh m -> m_dim m = 3 -> incidences m fs is -> NoDup fs -> NoDup is.
Proof.
  intros W D H. induction H as [|f fs fc is Hf H IH]; intros ND; [constructor|]. apply NoDup_cons_iff in ND as [N1 N2].
  apply NoDup_app_iff. splits; [|auto|].
  - apply FinFun.Injective_map_NoDup; [intros a b E; congruence|].
    assert (S : subs m 2 f = Ok (f_subs fc)).
    { unfold subs. rewrite D. cbn [Nat.sub Nat.eqb]. rewrite (proj2 (vat_ok _ _ _) Hf). reflexivity. }
    apply (wf_subs m W 2 f (f_subs fc)); [lia|exact S].
  - intros [f' e] Hin Hin'. apply in_map_iff in Hin as (e' & E & _). injection E as <- _. apply N1. exact (proj1 (inc_in m fs is f e H Hin')).
Qed.

Lemma perm4_sign (P : N -> point) p q r s x y z d : Permutation [p; q; r; s] [x; y; z; d] ->
  exists sg : R, (sg = 1 \/ sg = -1)%R /\ v6 P x y z d = (sg * v6 P p q r s)%R.
Proof.
  intros H. destruct (perm_last _ _ _ _ _ _ _ _ H) as [[-> Q]|[[-> Q]|[[-> Q]|[-> Q]]]]; destruct (perm_sign P _ _ _ _ _ _ Q) as (sg & Hs & E); rewrite E.
  - exists sg. auto.
  - exists (- sg)%R. split; [destruct Hs as [-> | ->]; [right|left]; ring|]. unfold v6, vol6, det3. ring.
  - exists sg. split; [exact Hs|]. unfold v6, vol6, det3. ring.
  - exists (- sg)%R. split; [destruct Hs as [-> | ->]; [right|left]; ring|]. unfold v6, vol6, det3. ring.
Qed.

Section Export.
Context {C : Type} (g : C * C * C -> point) (L3 : forall p, length (g p) = 3) (m : Mesh (C * C * C)) (poly : N -> N -> list point).
Context (ccenter fcenter : N -> C * C * C) (key : C * C * C -> string) (extra : list (C * C * C)).
Let xc := fun c => g (ccenter c).
Let xf := fun f => g (fcenter f).
Hypothesis X : convex_mesh3 (with_points g m) poly.
Hypothesis SC : simple_cells m poly.
Hypothesis CI : centres_inside m poly xc xf.
Hypothesis CT : centres_told m ccenter fcenter key.
Hypothesis AC : forall p, In p extra -> is_centre m ccenter fcenter p.
Let pts := m_verts m ++ extra.
Let W : wf_mesh m := wp_wf_back g m (geo_wf _ (cx3_geo _ _ X)).
Let D : m_dim m = 3 := cx3_dim _ _ X.

(** One entry for every written tetrahedron: its cell, face and edge. *)
Lemma entries (blocks : list (list (list N * etype))) : forall c0,
  (forall i b, nth_error blocks i = Some b -> exists fs is, ring m (c0 + N.of_nat i) fs /\ incidences m fs is /\ Forall2 (tetra_of m ccenter fcenter key pts (c0 + N.of_nat i)) is b) ->
  exists K : list (N * (N * N)), Forall2 (fun q x => valid m (fst q) (fst (snd q)) (snd (snd q)) /\ tetra_of m ccenter fcenter key pts (fst q) (snd q) x) K (concat blocks) /\
    NoDup K /\ map fst K = sources c0 (map (@length _) blocks) /\ forall q, In q K -> (c0 <= fst q)%N.
Proof.
  induction blocks as [|b bs IH]; intros c0 H; [exists []; splits; [constructor|constructor|reflexivity|intros q []]|].
  destruct (H 0 b eq_refl) as (fs & is & R & I & F). rewrite N.add_0_r in *.
  destruct (IH (c0 + 1)%N) as (K & HK & ND & HS & HL).
  { intros i b' Hb. destruct (H (S i) b' Hb) as (fs' & is' & R' & I' & F'). replace (c0 + N.of_nat (S i))%N with (c0 + 1 + N.of_nat i)%N in * by lia. eauto. }
  exists (map (fun fe => (c0, fe)) is ++ K). cbn [concat map sources]. splits.
  - apply Forall2_app; [|exact HK]. clear HK IH H. assert (Hin : forall f e, In (f, e) is -> valid m c0 f e).
    { intros f e Hfe. destruct (inc_in m fs is f e I Hfe) as (A & face & Hf & He). exists fs, face. auto. }
    clear I. induction F as [|fe x is b T F IHF]; [constructor|]. cbn [map]. constructor.
    + cbn [fst snd]. split; [|exact T]. apply Hin. left. destruct fe; reflexivity.
    + apply IHF. intros f e Hfe. apply Hin. right. exact Hfe.
  - apply NoDup_app_iff. splits; [|exact ND|].
    + apply FinFun.Injective_map_NoDup; [intros a b' E; congruence|]. apply (inc_nodup m fs is W D I). destruct R as (f0 & r & _ & _ & _ & N). exact N.
    + intros q Hq Hq'. apply in_map_iff in Hq as (fe & <- & _). apply HL in Hq'. cbn in Hq'. lia.
  - rewrite map_app, map_map, HS. f_equal. apply Forall2_length' in F. rewrite <- F. clear. induction is; [reflexivity|]. cbn. f_equal. exact IHis.
  - intros q Hq. apply in_app_iff in Hq as [Hq|Hq]; [apply in_map_iff in Hq as (fe & <- & _); cbn; lia|]. apply HL in Hq. lia.
Qed.

Lemma tets_grid (cells : list (list N * etype)) (codes : list N) (K : list (N * (N * N))) :
  Forall2 (fun q x => valid m (fst q) (fst (snd q)) (snd (snd q)) /\ tetra_of m ccenter fcenter key pts (fst q) (snd q) x) K cells -> NoDup K ->
  length codes = length cells -> (N.of_nat (6 * length cells) <= INVALID)%N -> tet_grid g (mkVtk pts (map fst cells) codes).
Proof.
  intros HK ND LC LI. pose proof (proj1 (Forall2_nth _ _ _) HK) as [LK HN].
  assert (At : forall i vs, nth_error (map fst cells) i = Some vs -> exists c f e, nth_error K i = Some (c, (f, e)) /\
     (forall v, In v vs -> (v < N.of_nat (length pts))%N) /\ (exists a b fi ci, vs = [a; b; fi; ci]) /\
     exists s t fi ci, tet_at g m poly ccenter fcenter key extra c f e vs s t fi ci).
  { intros i vs Hi. rewrite nth_error_map in Hi. destruct (nth_error cells i) as [x|] eqn:Ex; [|discriminate Hi]. injection Hi as <-.
    destruct (nth_error K i) as [[c [f e]]|] eqn:EK; [|apply nth_error_None in EK; assert (i < length cells) by (apply nth_error_Some; congruence); lia].
    destruct (HN i _ x EK Ex) as [V T]. cbn [fst snd] in *.
    destruct (tetra_at g L3 m poly ccenter fcenter key extra D X CT AC c f e x V T) as (A & _ & B & E). exists c, f, e. auto. }
  constructor; cbn [vf_pts vf_cells vf_types].
  - intros vs Hvs. apply In_nth_error in Hvs as (i & Hi). destruct (At i vs Hi) as (c & f & e & _ & R & (a & b & fi & ci & E) & s & t & fi' & ci' & T).
    split; [exact R|]. exists a, b, fi, ci. split; [exact E|]. cbv zeta.
    pose proof (tet_oriented g m poly ccenter fcenter key extra X CI _ _ _ _ _ _ _ _ T) as O.
    pose proof (ta_perm _ _ _ _ _ _ _ _ _ _ _ _ _ _ _ T) as PP. rewrite E in PP.
    destruct (perm4_sign (point_of g pts) _ _ _ _ _ _ _ _ PP) as (sg & _ & Es). fold (v6 (point_of g pts) a b fi ci). intros Z.
    rewrite Z in Es. assert (Eo : v6 (point_of g pts) ci' fi' s t = (- v6 (point_of g pts) s t fi' ci')%R) by (unfold v6, vol6, det3; ring).
    change (0 < v6 (point_of g pts) ci' fi' s t)%R in O. rewrite Eo, Es in O. lra.
  - intros i j vs vs' x y z d d' Hi Hj Ne Hp Hp'. cbv zeta.
    destruct (At i vs Hi) as (c & f & e & EK & _ & _ & s & t & fi & ci & T). destruct (At j vs' Hj) as (c' & f' & e' & EK' & _ & _ & s' & t' & fi' & ci' & T').
    apply (tets_sides g m poly ccenter fcenter key extra D X SC CI CT c f e vs s t fi ci c' f' e' vs' s' t' fi' ci' x y z d d' T T'); auto.
    intros Eq. apply Ne. apply (proj1 (NoDup_nth_error K) ND); [apply nth_error_Some; congruence|]. rewrite EK, EK'. congruence.
  - rewrite map_length. exact LI.
  - rewrite map_length, LC. lia.
Qed.

(** The tetrahedra of a cell fill it. *)
Lemma face_sum c fs f face (b : list (list N * etype)) codes cells : ring m c fs -> In f fs -> nth_error (m_faces m) (N.to_nat f) = Some face ->
  Forall2 (tetra_of m ccenter fcenter key pts c) (map (fun e => (f, e)) (f_subs face)) b ->
  Rsum (map (fun x => tet_volume g (mkVtk pts cells codes) (fst x)) b) =
  (Rsum (map (fun e => vol6 (xc c) (xf f) (fst e) (snd e)) (cycle_edges (poly c f))) / 6)%R.
Proof.
  intros HR Hf Hface F. destruct (cx3_cell _ _ X c fs (proj2 (wp_ring g m c fs) HR)) as [_ H].
  destruct (H f face Hf Hface) as (es & HE & HT).
  assert (Ab : forall e, In e (cycle_edges (poly c f)) -> vol6 (xc c) (xf f) (fst e) (snd e) = Rabs (vol6 (xc c) (xf f) (fst e) (snd e))).
  { intros e He. symmetry. apply Rabs_right. apply Rle_ge, Rlt_le. exact (orient g m poly xc xf X CI c fs f e HR Hf He). }
  rewrite (Rsum_ext _ _ _ Ab). unfold Rdiv. rewrite Rmult_comm, <- Rsum_scale.
  rewrite <- (traces_sum (fun e => / 6 * Rabs (vol6 (xc c) (xf f) (fst e) (snd e)))%R es).
  2:{ intros [u v]. cbn [rev_edge fst snd]. rewrite vol6_flip, Rabs_Ropp. reflexivity. }
  2:{ exact HT. }
  assert (V : forall e, In e (f_subs face) -> valid m c f e) by (intros e He; exists fs, face; auto).
  clear HT Ab H Hface. rewrite Forall2_map_l in F.
  revert b F. induction HE as [|e ab es' ps Hab HE IH]; intros b F; inversion F as [|? x ? b' T F']; subst; [reflexivity|].
  cbn [map]. change (Rsum (?a :: ?l)) with (a + Rsum l)%R. rewrite IH; [|intros; apply V; right; assumption|exact F']. f_equal.
  destruct (tetra_at g L3 m poly ccenter fcenter key extra D X CT AC c f e x (V e (or_introl eq_refl)) T) as (_ & _ & _ & s & t & fi & ci & TA).
  destruct T as (a & b0 & fi0 & ci0 & p & q & -> & He & _). cbn [fst snd] in *.
  unfold tet_volume. cbn [vf_pts map].
  pose proof (ta_perm _ _ _ _ _ _ _ _ _ _ _ _ _ _ _ TA) as PP. destruct (perm4_sign (point_of g pts) _ _ _ _ _ _ _ _ PP) as (sg & Hs & Es).
  pose proof (ta_f _ _ _ _ _ _ _ _ _ _ _ _ _ _ _ TA) as Ef. pose proof (ta_c _ _ _ _ _ _ _ _ _ _ _ _ _ _ _ TA) as Ec.
  fold pts in Ef, Ec. fold (v6 (point_of g pts) a b0 fi0 ci0).
  assert (Q : v6 (point_of g pts) s t fi ci = vol6 (xc c) (xf f) (point_of g pts t) (point_of g pts s)).
  { unfold v6. rewrite Ef, Ec. fold (xf f) (xc c). unfold vol6, det3. ring. }
  assert (Q2 : Rabs (v6 (point_of g pts) s t fi ci) = Rabs (v6 (point_of g pts) a b0 fi0 ci0)).
  { rewrite Es, Rabs_mult. destruct Hs as [-> | ->]; [rewrite Rabs_R1; ring|]. rewrite (Rabs_left (-1)) by lra. ring. }
  rewrite <- Q2, Q. destruct (ta_dir _ _ _ _ _ _ _ _ _ _ _ _ _ _ _ TA) as (_ & ab' & Hab' & Ed).
  destruct (edge_points_det _ _ _ _ _ _ Hab Hab') as [E1 E2]. fold pts in Ed.
  destruct Ed as [Ed|Ed]; [assert (A1 := f_equal fst Ed); assert (A2 := f_equal snd Ed)|assert (A1 := f_equal fst Ed); assert (A2 := f_equal snd Ed)];
    cbn [fst snd rev_edge] in A1, A2; rewrite A1, A2, E1, E2.
  - rewrite vol6_flip, Rabs_Ropp. field.
  - field.
Qed.
Lemma face_flat c fs f : ring m c fs -> In f fs -> coplanar (xf f :: poly c f) /\ length (xf f) = 3 /\ forall v, In v (poly c f) -> length v = 3.
Proof.
  intros HR Hf. pose proof (proj2 (wp_ring g m c fs) HR) as HR'.
  destruct (CI c fs HR) as [_ HF]. specialize (HF f Hf).
  destruct (cx3_cell _ _ X c fs HR') as [[_ HS] _].
  destruct (HS (poly c f)) as (Hne & n & k & Ln & Hk & Hle & (ws & v & Hws & Hv & Hlt) & HC); [apply in_map; exact Hf|].
  assert (Lv : forall v, In v (poly c f) -> length v = 3) by (intros w; apply (poly_len (with_points g m) poly X c fs f w HR' Hf)).
  splits; [|exact (proj1 HF)|exact Lv]. exists n, k. splits; [exact Ln| |].
  - intros Z. assert (Lw : length v = 3).
    { apply in_map_iff in Hws as (h & <- & Hh). exact (poly_len (with_points g m) poly X c fs h v HR' Hh Hv). }
    destruct (poly c f) as [|w r] eqn:Ep; [congruence|].
    destruct n as [|n1 [|n2 [|n3 [|]]]]; try discriminate Ln. cbn [sprod] in Z.
    assert (n1 = 0 /\ n2 = 0 /\ n3 = 0)%R as (E1 & E2 & E3) by (repeat split; nra).
    pose proof (Hk w (or_introl eq_refl)) as Kw. subst n1 n2 n3.
    assert (S0 : forall q, sprod [0; 0; 0]%R q = 0%R).
    { intros [|q1 [|q2 [|q3 q]]]; cbn [sprod]; ring. }
    rewrite S0 in Kw, Hlt. lra.
  - intros q [<-|Hq]; [|exact (Hk q Hq)]. exact (inside_eq n k (poly c f) (xf f) Ln Lv HF Hk).
Qed.
Lemma cell_sum c fs is (b : list (list N * etype)) codes cells : ring m c fs -> incidences m fs is -> Forall2 (tetra_of m ccenter fcenter key pts c) is b ->
  Rsum (map (fun x => tet_volume g (mkVtk pts cells codes) (fst x)) b) = poly_volume (map (poly c) fs).
Proof.
  intros HR I F.
  assert (S : Rsum (map (fun x => tet_volume g (mkVtk pts cells codes) (fst x)) b) =
    Rsum (map (fun f => Rsum (map (fun e => vol6 (xc c) (xf f) (fst e) (snd e)) (cycle_edges (poly c f))) / 6)%R fs)).
  { assert (K : forall gs is, incidences m gs is -> incl gs fs -> forall b, Forall2 (tetra_of m ccenter fcenter key pts c) is b ->
      Rsum (map (fun x => tet_volume g (mkVtk pts cells codes) (fst x)) b) =
      Rsum (map (fun f => Rsum (map (fun e => vol6 (xc c) (xf f) (fst e) (snd e)) (cycle_edges (poly c f))) / 6)%R gs)).
    { clear b is I F. intros gs is I. induction I as [|f gs face is Hf I IH]; intros Hin b F.
      - inversion F. reflexivity.
      - apply Forall2_app_inv_l in F as (b1 & b2 & F1 & F2 & ->). rewrite map_app, Rsum_app.
        rewrite (IH (fun x H => Hin x (or_intror H)) b2 F2). rewrite (face_sum c fs f face b1 codes cells HR (Hin f (or_introl eq_refl)) Hf F1). reflexivity. }
    exact (K fs is I (incl_refl fs) b F). }
  rewrite S. destruct (cx3_cell _ _ X c fs (proj2 (wp_ring g m c fs) HR)) as [[CS _] _].
  pose proof (surface_sum (xc c) (map (fun f => (xf f, poly c f)) fs)) as SS. rewrite !map_map in SS. cbn [fst snd] in SS.
  unfold Rdiv. rewrite Rsum_scal_r. rewrite SS; [change (map (fun x : N => poly c x) fs) with (map (poly c) fs); field|exact CS|].
  intros p Hp. apply in_map_iff in Hp as (f & <- & Hf). cbn [fst snd]. exact (face_flat c fs f HR Hf).
Qed.
End Export.

(** C99. A mesh of simple convex polyhedra none of which has a native VTK type, with centres that lie inside and have different keys:
    it is written as a file of tetrahedra that loads again, and recomputing the measures of the loaded mesh gives positive volumes; the
    tetrahedra written for a cell have together exactly the volume that is computed for the cell of the original mesh, so the total is the
    same; and cell data that are written with the mesh keep their integral: the sum over the tetrahedra of the written value times
    the volume equals the sum over the cells. [t_back] is the map from tetrahedra to cells that the writer keeps. *)
Theorem C99_export : forall C (g : C * C * C -> point) reserve ori ccenter fcenter key (m : Mesh (C * C * C)) types t poly name
    (m0 : Mesh (C * C * C)) old tess tess' fc cc bcc tess1 tess1' fc1 cc1 bcc1,
  (forall p, length (g p) = 3) -> convex_mesh3 (with_points g m) poly -> simple_cells m poly ->
  centres_inside m poly (fun c => g (ccenter c)) (fun f => g (fcenter f)) -> centres_told m ccenter fcenter key ->
  (forall c, (c < N.of_nat (length (m_cells m)))%N -> exists ty, nth_error types (N.to_nat c) = Some ty /\ native3 ty = false) ->
  indexMesh3 ori ccenter fcenter key m types = Ok t -> (N.of_nat (6 * length (t_cells t)) <= INVALID)%N ->
  one_line name -> (reserve = 0 \/ 3 <= reserve) -> m_dim m0 = 3 -> length (m_mid m0) = 1 ->
  exists text m' types' u' ls' Fs' Vs' u ls Fs Vs srcs,
    writeVTK3 ori ccenter fcenter key m types = Ok text /\
    loadVTK3 reserve (writeHeader name ++ text) m0 old = Ok (m', types') /\
    initializeCenters (K := numR) tess (mkU (with_points g m') fc cc bcc) = Ok u' /\ elementMeasures (K := numR) tess' u' = Ok [ls'; Fs'; Vs'] /\
    initializeCenters (K := numR) tess1 (mkU (with_points g m) fc1 cc1 bcc1) = Ok u /\ elementMeasures (K := numR) tess1' u = Ok [ls; Fs; Vs] /\
    length Vs' = length (t_cells t) /\ length Vs = length (m_cells m) /\ length srcs = length Vs' /\
    (forall k c, In (k, c) (t_back t) <-> nth_error srcs (N.to_nat k) = Some c) /\
    (forall V, In V Vs' -> 0 < V)%R /\
    (forall c V, nth_error Vs (N.to_nat c) = Some V -> (0 < V)%R /\ sum_of c srcs Vs' = V) /\
    Rsum Vs' = Rsum Vs /\
    (forall data : list R, length data = length (m_cells m) -> exists out, cursor data (rev (t_back t)) 0 0 = Ok out /\
       length out = length Vs' /\ (forall k c, nth_error srcs k = Some c -> nth_error out k = nth_error data (N.to_nat c)) /\
       weighted out Vs' = weighted data Vs).
Proof.
  intros C g reserve ori ccenter fcenter key m types t poly name m0 old tess tess' fc cc bcc tess1 tess1' fc1 cc1 bcc1
    L3 X SC CI CT HT E LI HN HR HD HM.
  pose proof (wp_wf_back g m (geo_wf _ (cx3_geo _ _ X))) as W. pose proof (cx3_dim _ _ X) as D. cbn [with_points m_dim] in D.
  assert (HF : forall f, In f (m_faces m) -> f_subs f <> []) .
  { intros f Hf Z. apply In_nth_error in Hf as (i & Hi). pose proof (cx3_faces _ _ X 2 (N.of_nat i) []) as Q.
    apply Q; [cbn [with_points m_dim]; lia| |reflexivity]. unfold subs. cbn [with_points m_dim]. rewrite D. cbn [Nat.sub Nat.eqb].
    cbn [with_points m_faces]. rewrite (proj2 (vat_ok (m_faces m) (N.of_nat i) f)) by (rewrite Nat2N.id; exact Hi). cbn [bind]. rewrite Z. reflexivity. }
  destruct (C29_tessellation ori ccenter fcenter key m types t W D E) as (blocks & LB & EC & HB & Hback & Eb & _ & AC).
  destruct (C29_text ori ccenter fcenter key m types t W D E) as (codes & EW & FC).
  set (F := mkVtk (m_verts m ++ t_verts t) (map fst (t_cells t)) codes) in *.
  assert (HB' : forall i b, nth_error blocks i = Some b -> exists fs is, ring m (0 + N.of_nat i) fs /\ incidences m fs is /\
     Forall2 (tetra_of m ccenter fcenter key (m_verts m ++ t_verts t) (0 + N.of_nat i)) is b).
  { intros i b Hb. rewrite N.add_0_l. destruct (HB (N.of_nat i) b) as (ty & Hty & HW); [rewrite Nat2N.id; exact Hb|].
    assert (Hi : i < length blocks) by (apply nth_error_Some; congruence).
    destruct (HT (N.of_nat i)) as (ty' & Hty' & Hn); [lia|]. assert (ty' = ty) by congruence. subst ty'.
    unfold written_for in HW. rewrite Hn in HW. exact HW. }
  destruct (entries g m poly ccenter fcenter key (t_verts t) X blocks 0%N HB') as (K & HK & ND & HS & _).
  rewrite <- EC in HK.
  assert (LC : length codes = length (t_cells t)) by (apply Forall2_length' in FC; lia).
  assert (TG : tet_grid g F) by (exact (tets_grid g L3 m poly ccenter fcenter key (t_verts t) X SC CI CT AC (t_cells t) codes K HK ND LC LI)).
  set (l1 := [Vw "#"; Vw "vtk"; Vw "DataFile"; Vw "Version"; Vw "2.0"] : list (vtok C)).
  assert (H1 : one_line l1). { unfold one_line, l1. simpl. intuition discriminate. }
  assert (EH : writeHeader name ++ vtk_body F = vtk_header l1 name ++ vtk_body F ++ []).
  { rewrite app_nil_r. unfold writeHeader, vtk_header, l1. rewrite <- !app_assoc. reflexivity. }
  destruct (C78_tets C g reserve F l1 name [] m0 old tess tess' fc cc bcc L3 TG HR H1 HN HD HM) as (m' & types' & u' & ls' & Fs' & EL & E1 & E2 & HV).
  destruct (C78_convex3 (mkU (with_points g m) fc1 cc1 bcc1) poly tess1 tess1' true X)
    as (u & ls & Fs & Vs & ns & E3 & EU & E4 & _ & _ & _ & _ & _ & LV & _ & HVs & _). cbn [u_mesh] in *.
  exists (vtk_body F), m', types', u', ls', Fs', (map (tet_volume g F) (vf_cells F)), u, ls, Fs, Vs, (sources 0 (map (@length _) blocks)).
  assert (EV : map (tet_volume g F) (vf_cells F) = map (fun x => tet_volume g F (fst x)) (concat blocks)).
  { cbn [F vf_cells]. rewrite map_map, EC. reflexivity. }
  assert (LS : length (sources 0 (map (@length _) blocks)) = length (t_cells t)).
  { rewrite <- HS, map_length. exact (Forall2_length' _ _ _ HK). }
  assert (HC : forall i b fs, nth_error blocks i = Some b -> ring m (N.of_nat i) fs ->
     Rsum (map (fun x => tet_volume g F (fst x)) b) = poly_volume (map (poly (N.of_nat i)) fs)).
  { intros i b fs Hb HRg. destruct (HB' i b Hb) as (fs' & is & R' & I' & F'). rewrite N.add_0_l in *.
    pose proof (ring_det m _ _ _ HRg R') as Q. subst fs'.
    exact (cell_sum g L3 m poly ccenter fcenter key (t_verts t) X CI CT AC (N.of_nat i) fs is b codes (map fst (t_cells t)) HRg I' F'). }
  assert (HVc : forall i b V, nth_error blocks i = Some b -> nth_error Vs i = Some V -> V = Rsum (map (fun x => tet_volume g F (fst x)) b) /\ (0 < V)%R).
  { intros i b V Hb HVi. destruct (HB' i b Hb) as (fs' & is & R' & _). rewrite N.add_0_l in R'.
    destruct (HVs (N.of_nat i) fs' (proj2 (wp_ring g m _ _) R')) as (x & _ & _ & Q & Pos). rewrite Nat2N.id in Q. 
    assert (QV : Some V = Some (poly_volume (map (poly (N.of_nat i)) fs'))) by (etransitivity; [symmetry; exact HVi|exact Q]).
    injection QV as ->. split; [|exact Pos]. symmetry. exact (HC i b fs' Hb R'). }
  assert (EVs : Vs = map (fun b => Rsum (map (fun x => tet_volume g F (fst x)) b)) blocks).
  { apply nth_error_ext. intros i. rewrite nth_error_map. destruct (nth_error blocks i) as [b|] eqn:Hb; cbn [option_map].
    - destruct (nth_error Vs i) as [V|] eqn:HVi.
      + f_equal. exact (proj1 (HVc i b V Hb HVi)).
      + exfalso. apply nth_error_None in HVi. assert (i < length blocks) by (apply nth_error_Some; congruence).
        assert (length Vs = length (m_cells m)) by exact LV. nr. lia.
    - apply nth_error_None. apply nth_error_None in Hb. assert (length Vs = length (m_cells m)) by exact LV. nr. lia. }
  splits; auto.
  - rewrite EH. exact EL.
  - cbn [F vf_cells]. rewrite !map_length. reflexivity.
  - cbn [F vf_cells]. rewrite !map_length. exact LS.
  - intros k c. rewrite Hback. split; [tauto|]. intros Hk. split; [exact Hk|].
    assert (Hc : exists i, c = N.of_nat i /\ i < length blocks).
    { rewrite <- HS, nth_error_map in Hk. destruct (nth_error K (N.to_nat k)) as [[c' [f e]]|] eqn:EK; [|discriminate Hk]. injection Hk as <-.
      apply Forall2_nth in HK as [LK HKn]. destruct (nth_error (t_cells t) (N.to_nat k)) as [x|] eqn:Ex;
        [|apply nth_error_None in Ex; assert (N.to_nat k < length K) by (apply nth_error_Some; congruence); lia].
      destruct (HKn _ _ _ EK Ex) as [V _]. cbn [fst snd] in V. destruct (valid_lt g m [] D c' f e V) as [V' _]. exists (N.to_nat c'). split; lia. }
    destruct Hc as (i & -> & Hi). apply HT. lia.
  - intros V Hin. apply in_map_iff in Hin as (vs & <- & Hvs). apply In_nth_error in Hvs as (i & Hi). exact (proj1 (HV i vs Hi)).
  - intros c V Hc. destruct (nth_error blocks (N.to_nat c)) as [b|] eqn:Hb.
    2:{ exfalso. apply nth_error_None in Hb. assert (length Vs = length (m_cells m)) by exact LV.
        assert (N.to_nat c < length Vs) by (apply nth_error_Some; intros Z; assert (Q : Some V = None) by (etransitivity; [symmetry; exact Hc|exact Z]); discriminate Q). nr. lia. }
    destruct (HVc (N.to_nat c) b V Hb Hc) as [-> Pos]. split; [exact Pos|]. rewrite EV.
    pose proof (sum_of_sources (fun x => tet_volume g F (fst x)) blocks 0 (N.to_nat c) b Hb) as Q. rewrite N.add_0_l, N2Nat.id in Q. exact Q.
  - rewrite EV, EVs. generalize (fun x : list N * etype => tet_volume g F (fst x)) as h. intros h. clear. induction blocks as [|b bs IH]; [reflexivity|].
    cbn [concat map]. rewrite map_app, Rsum_app, IH. reflexivity.
  - intros data Ld. exists (expand (map (@length _) blocks) data). splits.
    + rewrite Eb.
      pose proof (cursor_spec data (fun c => negb (native3 (nth (N.to_nat c) types Tdefault))) (map (@length _) blocks) 0 0 0) as HCu.
      cbn [N.to_nat N.sub firstn skipn app] in HCu. apply HCu; try lia.
      * rewrite map_length. lia.
      * intros i n Hi. rewrite N.add_0_l, Nat2N.id. eapply blocks_lens; eassumption.
    + cbn [F vf_cells]. rewrite !map_length, EC. rewrite expand_length by (rewrite map_length; lia). rewrite concat_length'. reflexivity.
    + intros k c Hk. pose proof (expand_sources (map (@length _) blocks) 0 data k c) as G. rewrite N.sub_0_r in G. apply G; [rewrite map_length; lia|exact Hk].
    + rewrite EV, EVs. apply weighted_expand. lia.
Qed.
Print Assumptions C99_export.

(** C99. The centres that initializing the centres stores (with either method) are such centres. *)
Theorem C99_computed_centres : forall C (g : C * C * C -> point) (m : Mesh (C * C * C)) poly ccenter fcenter tess fc cc bcc u,
  convex_mesh3 (with_points g m) poly -> initializeCenters (K := numR) tess (mkU (with_points g m) fc cc bcc) = Ok u ->
  (forall c x, nth_error (u_cc u) (N.to_nat c) = Some x -> g (ccenter c) = x) ->
  (forall f x, nth_error (u_fc u) (N.to_nat f) = Some x -> g (fcenter f) = x) ->
  centres_inside m poly (fun c => g (ccenter c)) (fun f => g (fcenter f)).
Proof.
  intros C g m poly ccenter fcenter tess fc cc bcc u X E Hc Hf c fs HR. pose proof (proj2 (wp_ring g m c fs) HR) as HR'.
  destruct (C78_convex3 (mkU (with_points g m) fc cc bcc) poly tess true true X)
    as (u2 & ls & Fs & Vs & ns & E2 & _ & _ & _ & _ & _ & _ & _ & _ & _ & HV & HF & _). cbn [u_mesh] in *.
  pose proof (eq_trans (eq_sym E) E2) as Q. injection Q as <-. split.
  - destruct (HV c fs HR') as (x & Hx & HI & _). rewrite (Hc c x Hx). exact HI.
  - intros f Hin. destruct (HF c fs f HR' Hin) as (x & n & F & Hx & _ & _ & HI & _). rewrite (Hf f x Hx). exact HI.
Qed.
Print Assumptions C99_computed_centres.

(** * The two tetrahedra, in twelfths, written as polyhedra: twelve tetrahedra for each *)
Definition pt12 (p : Z * Z * Z) : point := [IZR (fst (fst p)) / 12; IZR (snd (fst p)) / 12; IZR (snd p) / 12]%R.
Definition tets12 : Mesh (Z * Z * Z) :=
  mkMesh 3 [(0,0,0);(12,0,0);(0,12,0);(0,0,12);(12,12,12)]%Z (m_mid twoTets) (m_faces twoTets) (m_cells twoTets) [].
Definition cell12 (c : N) : Z * Z * Z := if N.eqb c 0 then (3, 3, 3)%Z else (6, 6, 6)%Z.
Definition face12 (f : N) : Z * Z * Z :=
  nth (N.to_nat f) [(4,4,4); (0,4,4); (4,0,4); (4,4,0); (4,8,8); (8,4,8); (8,8,4)]%Z (0, 0, 0)%Z.
Definition ori12 : list (list bool) := map (fun f => map (fun _ => true) (f_subs f)) (m_faces tets12).
Lemma tets12_R : with_points pt12 tets12 = tetsR.
Proof.
  unfold with_points, tets12, tetsR, twoTets, pt12, pt3. cbn [m_dim m_verts m_mid m_faces m_cells m_bcells map fst snd with_points].
  replace (0 / 12)%R with 0%R by lra. replace (12 / 12)%R with 1%R by lra. reflexivity.
Qed.
Lemma tets12_simple : simple_cells tets12 tetsP.
Proof.
  intros c fs HR. apply (proj2 (wp_ring pt12 tets12 c fs)) in HR. rewrite tets12_R in HR.
  assert (ND : forall (l : list point), (forall i j a b, i < j -> nth_error l i = Some a -> nth_error l j = Some b -> a <> b) -> NoDup l).
  { intros l Hl. apply NoDup_nth_error. intros i j Hi E. destruct (Nat.lt_trichotomy i j) as [H|[H|H]]; [|exact H|]; exfalso.
    - destruct (nth_error l i) as [a|] eqn:Ea; [|apply nth_error_None in Ea; lia]. exact (Hl i j a a H Ea (eq_sym E) eq_refl).
    - destruct (nth_error l i) as [a|] eqn:Ea; [|apply nth_error_None in Ea; lia]. exact (Hl j i a a H (eq_sym E) Ea eq_refl). }
  destruct (tets_ring c fs HR) as [[-> ->]|[-> ->]]; split.
  1,3: intros f Hf; simpl in Hf; repeat (destruct Hf as [<-|Hf]; [repeat constructor; simpl; intros K; repeat destruct K as [K|K]; try (injection K; intros; lra); exact K|]); destruct Hf.
  all: cbn [map flat_map tetsP cycle_edges path_edges app]; repeat constructor; simpl; intros K; repeat destruct K as [K|K]; try (injection K; intros; lra); exact K.
Qed.
Lemma tets12_inside : centres_inside tets12 tetsP (fun c => pt12 (cell12 c)) (fun f => pt12 (face12 f)).
Proof.
  assert (MI : forall (vs : list point) (ws : list R) (c : point), length c = 3 -> length ws = length vs ->
     (forall w, In w ws -> 0 < w)%R -> Rsum ws = 1%R ->
     (forall al be ga de, al * px c + be * py c + ga * pz c + de = Rsum (map (fun p => fst p * (al * px (snd p) + be * py (snd p) + ga * pz (snd p) + de)) (combine ws vs)))%R ->
     rel_inside vs c).
  { intros vs ws c Lc Lw Pos _ HL. split; [exact Lc|]. intros al be ga de H. rewrite (HL al be ga de).
    assert (Hw : forall p, In p (combine ws vs) -> (0 < fst p)%R /\ In (snd p) vs).
    { intros [w v] Hp. split; [apply Pos; exact (in_combine_l _ _ _ _ Hp)|exact (in_combine_r _ _ _ _ Hp)]. }
    split.
    - apply Rsum_nonneg. intros p Hp. destruct (Hw p Hp) as [A B]. specialize (H _ B). nra.
    - intros (v & Hv & Hp). apply Rsum_pos; [intros p Hin; destruct (Hw p Hin) as [A B]; specialize (H _ B); nra|].
      apply In_nth_error in Hv as (i & Hi). assert (Hl : i < length ws) by (rewrite Lw; apply nth_error_Some; congruence).
      destruct (nth_error ws i) as [w|] eqn:Ew; [|apply nth_error_None in Ew; lia].
      assert (Hin : In (w, v) (combine ws vs)).
      { clear -Ew Hi. revert vs i Ew Hi. induction ws as [|w' ws IH]; intros [|v' vs] [|i] Ew Hi; try discriminate.
        - injection Ew as ->. injection Hi as ->. left. reflexivity.
        - right. exact (IH vs i Ew Hi). }
      exists (w, v). split; [exact Hin|]. cbn [fst snd]. destruct (Hw _ Hin) as [A _]. cbn [fst] in A. nra. }
  intros c fs HR. apply (proj2 (wp_ring pt12 tets12 c fs)) in HR. rewrite tets12_R in HR.
  destruct (tets_ring c fs HR) as [[-> ->]|[-> ->]]; split.
  1,3: apply (MI _ (repeat (/ 12)%R 12)); [reflexivity|reflexivity|intros w Hw; apply repeat_spec in Hw; lra|unfold Rsum; cbn; lra|];
    intros; unfold Rsum, px, py, pz, pt12, cell12, face12; simpl; lra.
  all: intros f Hf; simpl in Hf; repeat (destruct Hf as [<-|Hf]; [apply (MI _ (repeat (/ 3)%R 3)); [reflexivity|reflexivity|intros w Hw; apply repeat_spec in Hw; lra|unfold Rsum; cbn; lra|];
    intros; unfold Rsum, px, py, pz, pt12, cell12, face12; simpl; lra|]); destruct Hf.
Qed.
Lemma tets12_told : centres_told tets12 cell12 face12 zkey.
Proof.
  assert (Hc : forall c, (c < N.of_nat (length (m_cells tets12)))%N -> c = 0%N \/ c = 1%N) by (intros c H; change (c < 2)%N in H; lia).
  assert (Hf : forall f, (f < N.of_nat (length (m_faces tets12)))%N -> In f [0; 1; 2; 3; 4; 5; 6]%N).
  { intros f H. change (f < 7)%N in H. assert (f = 0 \/ f = 1 \/ f = 2 \/ f = 3 \/ f = 4 \/ f = 5 \/ f = 6)%N by lia. simpl. intuition. }
  constructor.
  - intros c c' H H' E. destruct (Hc c H) as [-> | ->], (Hc c' H') as [-> | ->]; try reflexivity; vm_compute in E; discriminate E.
  - intros f f' H H' E. apply Hf in H. apply Hf in H'. simpl in H, H'.
    repeat destruct H as [<-|H]; try destruct H; repeat destruct H' as [<-|H']; try destruct H'; try reflexivity; vm_compute in E; discriminate E.
  - intros c f H H' E. apply Hf in H'. simpl in H'. destruct (Hc c H) as [-> | ->]; repeat destruct H' as [<-|H']; try destruct H'; vm_compute in E; discriminate E.
Qed.
(** The hypotheses of C99 hold for the two tetrahedra; the file has 24 cells and 14 points, and the sums of the recomputed volumes are 1/6 and 1/3. *)
Example C99_instance : exists t, indexMesh3 ori12 cell12 face12 zkey tets12 [POLYHEDRON; POLYHEDRON] = Ok t /\
  length (t_cells t) = 24 /\ length (m_verts tets12 ++ t_verts t) = 14 /\
  exists text m' types' u' ls' Fs' Vs' srcs,
    writeVTK3 ori12 cell12 face12 zkey tets12 [POLYHEDRON; POLYHEDRON] = Ok text /\
    loadVTK3 0 (writeHeader [Vw "two"; Vw "tetrahedra"] ++ text) (emptyMesh 3) [] = Ok (m', types') /\
    initializeCenters (K := numR) false (mkU (with_points pt12 m') [] [] []) = Ok u' /\ elementMeasures (K := numR) true u' = Ok [ls'; Fs'; Vs'] /\
    length Vs' = 24 /\ sum_of 0 srcs Vs' = (1 / 6)%R /\ sum_of 1 srcs Vs' = (1 / 3)%R /\ Rsum Vs' = (1 / 2)%R.
Proof.
  destruct (indexMesh3 ori12 cell12 face12 zkey tets12 [POLYHEDRON; POLYHEDRON]) as [t| | |] eqn:E; [|vm_compute in E; discriminate E..].
  assert (Q : length (t_cells t) = 24 /\ length (m_verts tets12 ++ t_verts t) = 14).
  { assert (H : match indexMesh3 ori12 cell12 face12 zkey tets12 [POLYHEDRON; POLYHEDRON] with Ok t => (length (t_cells t), length (m_verts tets12 ++ t_verts t)) | _ => (0, 0) end = (24, 14)) by (vm_compute; reflexivity).
    rewrite E in H. split; congruence. }
  destruct Q as [Q1 Q2]. exists t. splits; auto.
  destruct (C99_export Z pt12 0 ori12 cell12 face12 zkey tets12 [POLYHEDRON; POLYHEDRON] t tetsP [Vw "two"; Vw "tetrahedra"] (emptyMesh 3) []
     false true [] [] [] false true [] [] []) as (text & m' & types' & u' & ls' & Fs' & Vs' & u & ls & Fs & Vs & srcs & H1 & H2 & H3 & H4 & H5 & H6 & H7 & H8 & H9 & H10 & H11 & H12 & H13 & H14).
  - intros p. reflexivity.
  - rewrite tets12_R. exact tets_convex.
  - exact tets12_simple.
  - exact tets12_inside.
  - exact tets12_told.
  - intros c Hc. change (c < 2)%N in Hc. assert (c = 0 \/ c = 1)%N as [-> | ->] by lia; exists POLYHEDRON; split; reflexivity.
  - exact E.
  - rewrite Q1. unfold INVALID. lia.
  - unfold one_line. simpl. intuition discriminate.
  - left. reflexivity.
  - reflexivity.
  - reflexivity.
  - rewrite tets12_R in H5.
    destruct (C78_convex3 (mkU tetsR [] [] []) tetsP false true true tets_convex)
      as (u2 & ls2 & Fs2 & Vs2 & ns2 & E2 & _ & E3 & _ & _ & _ & _ & _ & LV2 & _ & HV2 & _). cbn [u_mesh] in *.
    assert (u2 = u) by congruence. subst u2.
    assert (Vs2 = Vs). { pose proof (eq_trans (eq_sym E3) H6) as Z. injection Z as _ _ Z. exact Z. } subst Vs2.
    destruct C78_instance as (_ & R0 & R1 & P0 & P1 & _).
    destruct (HV2 0%N _ R0) as (_ & _ & _ & V0 & _). destruct (HV2 1%N _ R1) as (_ & _ & _ & V1 & _).
    rewrite P0 in V0. rewrite P1 in V1.
    assert (EV : Vs = [1 / 6; 1 / 3]%R).
    { change (length Vs = 2) in H8. destruct Vs as [|a [|b [|]]]; try discriminate H8. change (N.to_nat 1) with 1 in V1. change (N.to_nat 0) with 0 in V0. assert (A := f_equal (fun o => match o with Some x => x | None => 0%R end) V0). assert (B := f_equal (fun o => match o with Some x => x | None => 0%R end) V1). cbn in A, B. rewrite A, B. reflexivity. }
    exists text, m', types', u', ls', Fs', Vs', srcs. splits; auto.
    + etransitivity; [exact H7|exact Q1].
    + exact (proj2 (H12 0%N _ V0)).
    + exact (proj2 (H12 1%N _ V1)).
    + etransitivity; [exact H13|]. rewrite EV. unfold Rsum. cbn. lra.
Qed.

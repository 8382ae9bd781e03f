(** C77, second part: from a VTK file of convex polygons. Exact real arithmetic. *)
From Coq Require Import String Reals Lra Permutation List.
Import ListNotations.
From Verif Require Import P_Base M_Conn S_Conn P_Conn M_Index M_Mesh M_Apply S_Mesh P_Apply M_Vec S_Vec P_Vec M_Geom S_Geom P_Geom P_Centers T_Centers
  S_Polygon P_Polygon S_Flux P_Flux T_Flux T_Measure2 T_Normals T_Gauss2 M_Object T_Object S_Convex P_Convex T_Convex2
  M_Text P_Text M_FPMA S_FPMA P_FPMA M_VTK S_VTK P_Bnd T_VTK Ex_Mesh Ex_Geom Ex_VTK.
Local Open Scope string_scope.
Local Open Scope list_scope.
Local Open Scope R_scope.

(** The point number v of the file, in the plane. *)
Definition plane_point (F : vtk_file R) (v : N) : point :=
  match nth_error (vf_pts F) (N.to_nat v) with Some p => [fst (fst p); snd (fst p)] | None => [] end.
(** The polygon of cell number i of the file. *)
Definition cell_polygon (F : vtk_file R) (i : N) : list point := map (plane_point F) (nth (N.to_nat i) (vf_cells F) []).
(** The loaded mesh with coordinate pairs as points of the plane. *)
Definition plane_mesh (m : Mesh (R * R)) : Mesh point := with_points (fun p => [fst p; snd p]) m.
(** A grid of convex counterclockwise polygons; neighbours run through their common side in opposite directions (so polygons do
    not overlap along a side). *)
Record convex_grid2 (F : vtk_file R) : Prop := {
  cg_grid : grid2_ok F;
  cg_range : forall vs v, In vs (vf_cells F) -> In v vs -> (v < N.of_nat (length (vf_pts F)))%N;
  cg_convex : forall vs, In vs (vf_cells F) -> convex_ccw (map (plane_point F) vs);
  cg_once : forall c c' vs vs' i j a b, nth_error (vf_cells F) c = Some vs -> nth_error (vf_cells F) c' = Some vs' ->
            side vs i a b -> side vs' j a b -> c = c'
}.

Section Wp.
Context {V : Type} (g : V -> point) (m : Mesh V).
Lemma wp_ring c fs : ring (with_points g m) c fs <-> ring m c fs.
Proof.
  assert (H : forall f0 l, closed_chain (with_points g m) c f0 l <-> closed_chain m c f0 l).
  { intros f0. induction l as [|f l IH]; [reflexivity|]. destruct l as [|h l]; [reflexivity|].
    cbn [closed_chain] in *. rewrite IH. reflexivity. }
  unfold ring. split; intros (f0 & r & H1 & H2 & H3 & H4); exists f0, r; (split; [exact H1|split; [exact H2|split; [|exact H4]]]);
    apply H; exact H3.
Qed.
Lemma wp_wf : wf_mesh m -> wf_mesh (with_points g m).
Proof.
  intros [W1 W2 W3 W4]. constructor; [exact W1|exact W2| |].
  - intros k i js Hk Hs. assert (E : n_elems (with_points g m) (k - 1) = n_elems m (k - 1)) by (unfold n_elems, with_points; simpl; rewrite map_length; reflexivity).
    rewrite E. apply (W3 k i js); assumption.
  - intros c Hc. destruct (W4 c Hc) as (fs & Hf). exists fs. apply wp_ring. assumption.
Qed.
Lemma wp_sides : sides_match m -> sides_match (with_points g m).
Proof. intros H c fs f face HR. apply wp_ring in HR. apply (H c fs f face HR). Qed.
Lemma wp_geo d : m_dim m = d -> (forall p, length (g p) = d) -> wf_mesh m -> geo_mesh (with_points g m).
Proof. intros D L W. constructor; [apply wp_wf; assumption|]. simpl. intros p Hp. apply in_map_iff in Hp as (q & <- & _). rewrite D. apply L. Qed.
End Wp.

Lemma path_nth p l i d : (i < length l)%nat -> nth_error (path_edges p l) i = Some (nth i (p :: l) d, nth i l d).
Proof.
  revert p i. induction l as [|q l IH]; intros p i Hi; [simpl in Hi; lia|].
  destruct i as [|i]; [reflexivity|]. simpl in Hi. cbn [path_edges nth_error]. rewrite (IH q i) by lia. reflexivity.
Qed.
Lemma cycle_nth ws i d : (i < length ws)%nat -> nth_error (cycle_edges ws) i = Some (nth i ws d, nth (S i mod length ws) ws d).
Proof.
  destruct ws as [|v r]; intros Hi; [simpl in Hi; lia|]. unfold cycle_edges. simpl length in *.
  rewrite (path_nth v (r ++ [v]) i d) by (rewrite app_length; simpl; lia). f_equal. f_equal.
  - change (v :: r ++ [v]) with ((v :: r) ++ [v]). apply app_nth1. simpl. lia.
  - destruct (Nat.eq_dec i (length r)) as [->|Hne].
    + rewrite app_nth2, Nat.sub_diag, Nat.mod_same by lia. reflexivity.
    + rewrite app_nth1, Nat.mod_small by lia. reflexivity.
Qed.
Lemma side_cycle (P : N -> point) vs i a b : side vs i a b -> nth_error (cycle_edges (map P vs)) i = Some (P a, P b).
Proof.
  intros [Ha Hb]. assert (Hi : (i < length vs)%nat) by (apply nth_error_Some; congruence).
  rewrite (cycle_nth (map P vs) i (P 0%N)) by (rewrite map_length; assumption). rewrite map_length, !map_nth.
  rewrite (nth_error_nth _ _ _ Ha), (nth_error_nth _ _ _ Hb). reflexivity.
Qed.
Lemma side_at vs i : (i < length vs)%nat -> exists a b, side vs i a b.
Proof.
  intros Hi. exists (nth i vs 0%N), (nth (S i mod length vs) vs 0%N). split; apply nth_error_nth'; [assumption|].
  apply Nat.mod_upper_bound. lia.
Qed.
Lemma Forall2_of_nth {A B} (P : A -> B -> Prop) l1 : forall l2, length l1 = length l2 ->
  (forall i a b, nth_error l1 i = Some a -> nth_error l2 i = Some b -> P a b) -> Forall2 P l1 l2.
Proof.
  induction l1 as [|a l1 IH]; intros [|b l2] L H; try discriminate L; constructor.
  - apply (H 0%nat); reflexivity.
  - apply IH; [simpl in L; lia|]. intros i. apply (H (S i)).
Qed.

(** C77. A VTK file of convex polygons that covers the plane consistently loads into a mesh that satisfies the hypotheses of
    C77_convex2, with the polygons of the file. *)
Theorem C77_vtk2 : forall (F : vtk_file R) l1 l2 rest (m0 : Mesh (R * R)) old,
  convex_grid2 F -> one_line l1 -> one_line l2 -> m_dim m0 = 2%nat -> m_mid m0 = [] ->
  exists m types, loadVTK2 (vtk_header l1 l2 ++ vtk_body F ++ rest) m0 old = Ok (m, types) /\
    length (m_cells m) = length (vf_cells F) /\ convex_mesh2 (plane_mesh m) (cell_polygon F).
Proof.
  intros F l1 l2 rest m0 old [G HV HX HO] H1 H2 HD HM.
  destruct (C73_vtk2 R F l1 l2 rest m0 old G H1 H2 HD HM HV) as (m & types & E & W & SM). exists m, types. split; [exact E|].
  destruct (C24_vtk2_read F l1 l2 rest m0 old G H1 H2 HD HM) as (m' & types' & ess & E' & D & M & Vs & L & S & R & U & _ & LR & Dir).
  assert (m' = m) by congruence. subst m'. clear E'. split; [exact L|].
  assert (LE : length ess = length (vf_cells F)) by (apply Forall2_length' in S; assumption).
  (* the ends of an edge *)
  assert (PP : forall v p, nth_error (m_verts (plane_mesh m)) (N.to_nat v) = Some p -> p = plane_point F v).
  { intros v p Hp. unfold plane_mesh, with_points in Hp. cbn [m_verts] in Hp. rewrite Vs, map_map, nth_error_map in Hp. unfold plane_point.
    destruct (nth_error (vf_pts F) (N.to_nat v)); [|discriminate]. injection Hp as <-. reflexivity. }
  assert (EP : forall f face a b, nth_error (m_faces m) (N.to_nat f) = Some face -> f_subs face = [a; b] ->
     forall p q, edge_points (plane_mesh m) f p q -> p = plane_point F a /\ q = plane_point F b).
  { intros f face a b Hf Hs p q (i & j & Hsub & Hi & Hj). unfold subs in Hsub. cbn [m_dim plane_mesh with_points] in Hsub. rewrite D in Hsub.
    cbn [Nat.sub Nat.eqb] in Hsub. change (m_faces (plane_mesh m)) with (m_faces m) in Hsub. rewrite (proj2 (vat_ok _ _ _) Hf) in Hsub. cbn in Hsub. injection Hsub as Hsub. rewrite Hs in Hsub. injection Hsub as <- <-.
    split; apply PP; assumption. }
  assert (EQ : forall f face a b, nth_error (m_faces m) (N.to_nat f) = Some face -> f_subs face = [a; b] ->
     edge_points (plane_mesh m) f (plane_point F a) (plane_point F b)).
  { intros f face a b Hf Hs. exists a, b.
    assert (HR : forall v, In v [a; b] -> nth_error (m_verts (plane_mesh m)) (N.to_nat v) = Some (plane_point F v)).
    { intros v Hv. destruct (Dir (N.to_nat f) face Hf) as (vs & j & a' & b' & Hvs & [Ha Hb] & Hs'). rewrite Hs in Hs'. injection Hs' as <- <-.
      assert (Hin : In v vs) by (destruct Hv as [<-|[<-|[]]]; eapply nth_error_In; eassumption).
      pose proof (HV vs v (nth_error_In _ _ Hvs) Hin) as Hlt. unfold plane_mesh, with_points. cbn [m_verts]. rewrite Vs, map_map, nth_error_map. unfold plane_point.
      destruct (nth_error (vf_pts F) (N.to_nat v)) eqn:Ev; [reflexivity|]. apply nth_error_None in Ev. lia. }
    splits; [|apply HR; left; reflexivity|apply HR; right; left; reflexivity].
    unfold subs. cbn [m_dim plane_mesh with_points]. rewrite D. cbn [Nat.sub Nat.eqb]. change (m_faces (plane_mesh m)) with (m_faces m). rewrite (proj2 (vat_ok _ _ _) Hf). cbn. rewrite Hs. reflexivity. }
  assert (Subs : forall f face, nth_error (m_faces m) (N.to_nat f) = Some face -> exists a b, f_subs face = [a; b]).
  { intros f face Hf. destruct (Dir _ face Hf) as (vs & j & a & b & _ & _ & Hs). eauto. }
  assert (JE : forall f face a b x y, nth_error (m_faces m) (N.to_nat f) = Some face -> f_subs face = [a; b] -> joins (edges2 m) f x y ->
     (x, y) = (a, b) \/ (x, y) = (b, a)).
  { intros f face a b x y Hf Hs J. unfold joins, edges2 in J. rewrite nth_error_map, Hf in J. cbn in J. rewrite Hs in J.
    destruct J as [J|J]; injection J as <- <-; auto. }
  (* a cell lists a face: one of its directed sides is that face *)
  assert (Lst : forall c f face a b, In c (listing ess f) -> nth_error (m_faces m) (N.to_nat f) = Some face -> f_subs face = [a; b] ->
     exists vs k, nth_error (vf_cells F) (N.to_nat c) = Some vs /\ (side vs k a b \/ side vs k b a)).
  { intros c f face a b Hc Hf Hs. apply in_listing in Hc as (es & Hes & Hin). destruct (In_nth_error _ _ Hin) as (k & Hk).
    destruct (Forall2_nth_l _ _ _ _ _ S Hes) as (vs & Hvs & Ls & HJ). exists vs, k. split; [exact Hvs|].
    assert (Hlt : (k < length vs)%nat) by (rewrite <- Ls; apply nth_error_Some; congruence).
    destruct (side_at vs k Hlt) as (x & y & Hxy). pose proof (HJ k f x y Hk Hxy) as J.
    destruct (JE _ _ _ _ _ _ Hf Hs J) as [Q|Q]; injection Q as -> ->; auto. }
  constructor.
  - apply (wp_geo _ m 2); auto.
  - exact D.
  - apply wp_sides. exact SM.
  - intros i Hi. change (is_cell m i = true) in Hi. unfold is_cell in Hi. apply N.ltb_lt in Hi. rewrite L in Hi.
    destruct (nth_error (vf_cells F) (N.to_nat i)) as [vs|] eqn:Evs; [|apply nth_error_None in Evs; lia].
    assert (EC : cell_polygon F i = map (plane_point F) vs) by (unfold cell_polygon; rewrite (nth_error_nth _ _ _ Evs); reflexivity).
    rewrite EC. split; [apply HX; eapply nth_error_In; exact Evs|].
    destruct (nth_error ess (N.to_nat i)) as [es|] eqn:Ees; [|apply nth_error_None in Ees; lia].
    destruct (Forall2_nth_l _ _ _ _ _ S Ees) as (vs' & Hvs' & Ls & HJ). assert (vs' = vs) by congruence. subst vs'.
    set (seg := fun f : N => match nth_error (m_faces m) (N.to_nat f) with
       Some fc => (plane_point F (nth 0 (f_subs fc) 0%N), plane_point F (nth 1 (f_subs fc) 0%N)) | None => ([], []) end).
    assert (Hface : forall f, In f es -> exists face, nth_error (m_faces m) (N.to_nat f) = Some face).
    { intros f Hf. destruct (In_nth_error _ _ Hf) as (k & Hk).
      assert (Hlt : (k < length vs)%nat) by (rewrite <- Ls; apply nth_error_Some; congruence).
      destruct (side_at vs k Hlt) as (x & y & Hxy). pose proof (HJ k f x y Hk Hxy) as J. unfold joins, edges2 in J. rewrite nth_error_map in J.
      destruct (nth_error (m_faces m) (N.to_nat f)); [eauto|]. destruct J; discriminate. }
    exists es, (map seg es). splits.
    + apply wp_ring. apply R. exact Ees.
    + apply Forall2_of_nth; [rewrite map_length; reflexivity|]. intros k f e Hk He. rewrite nth_error_map, Hk in He. injection He as <-.
      destruct (Hface f (nth_error_In _ _ Hk)) as (face & Hf). destruct (Subs _ _ Hf) as (a & b & Hs).
      unfold seg. rewrite Hf, Hs. cbn [nth fst snd]. eapply EQ; eassumption.
    + exists (cycle_edges (map (plane_point F) vs)). split; [apply Permutation_refl|].
      apply Forall2_of_nth; [rewrite cycle_length, !map_length; exact Ls|]. intros k e d He Hd.
      rewrite nth_error_map in He. destruct (nth_error es k) as [f|] eqn:Ek; [|discriminate]. injection He as <-.
      assert (Hlt : (k < length vs)%nat) by (rewrite <- Ls; apply nth_error_Some; congruence).
      destruct (side_at vs k Hlt) as (x & y & Hxy). rewrite (side_cycle (plane_point F) vs k x y Hxy) in Hd. injection Hd as <-.
      destruct (Hface f (nth_error_In _ _ Ek)) as (face & Hf). destruct (Subs _ _ Hf) as (a & b & Hs).
      unfold seg. rewrite Hf, Hs. cbn [nth]. destruct (JE _ _ _ _ _ _ Hf Hs (HJ k f x y Ek Hxy)) as [Q|Q]; injection Q as -> ->; [left|right]; reflexivity.
  - intros f face p q Hf Hpq. change (nth_error (m_faces m) (N.to_nat f) = Some face) in Hf.
    destruct (Dir _ face Hf) as (vl & jl & a & b & Hvl & Hsl & Hs). destruct (EP f face a b Hf Hs p q Hpq) as [-> ->].
    destruct (LR _ face Hf) as (Cl & Cr & _). rewrite N2Nat.id in Cl, Cr.
    assert (Hil : is_cell (plane_mesh m) (cellLeft (bc (f_conn face))) = true).
    { change (is_cell m (cellLeft (bc (f_conn face))) = true). unfold is_cell. apply N.ltb_lt. rewrite L.
      assert (N.to_nat (cellLeft (bc (f_conn face))) < length (vf_cells F))%nat by (apply nth_error_Some; congruence). lia. }
    splits.
    + intros _. unfold cell_polygon. rewrite (nth_error_nth _ _ _ Hvl). eapply nth_error_In. apply side_cycle. exact Hsl.
    + intros Hi. change (is_cell m (cellRight (bc (f_conn face))) = true) in Hi. unfold is_cell in Hi. apply N.ltb_lt in Hi. rewrite L in Hi.
      pose proof (g2_cells _ G) as HG.
      assert (Hin : In (cellRight (bc (f_conn face))) (listing ess f) /\ cellLeft (bc (f_conn face)) <> cellRight (bc (f_conn face))).
      { rewrite Cl, Cr. rewrite Cr in Hi. pose proof (listers_NoDup ess 0%N f) as ND. rewrite listers_listing in ND.
        destruct (listing ess f) as [|x [|y r]]; cbn [nth] in *; [lia|lia|]. split; [right; left; reflexivity|].
        intros ->. inversion ND as [|? ? Hn _]. apply Hn. left. reflexivity. }
      destruct Hin as [Hin Hne]. destruct (Lst _ _ _ _ _ Hin Hf Hs) as (vr & k & Hvr & [Hsr|Hsr]).
      * exfalso. apply Hne. apply N2Nat.inj. eapply HO; eassumption.
      * unfold cell_polygon. rewrite (nth_error_nth _ _ _ Hvr). eapply nth_error_In. apply side_cycle. exact Hsr.
    + left. exact Hil.
Qed.
Print Assumptions C77_vtk2.

(** C77. Hence, for such a file: loading it, initializing the centres and computing the measures gives the areas of the polygons
    of the file, in file order. *)
Theorem C77_file : forall (F : vtk_file R) l1 l2 rest (m0 : Mesh (R * R)) old tess fc cc bcc,
  convex_grid2 F -> one_line l1 -> one_line l2 -> m_dim m0 = 2%nat -> m_mid m0 = [] ->
  exists m types u ls, loadVTK2 (vtk_header l1 l2 ++ vtk_body F ++ rest) m0 old = Ok (m, types) /\
    initializeCenters (K := numR) tess (mkU (plane_mesh m) fc cc bcc) = Ok u /\
    elementMeasures (K := numR) tess u = Ok [ls; map (fun vs => shoelace (map (plane_point F) vs)) (vf_cells F)].
Proof.
  intros F l1 l2 rest m0 old tess fc cc bcc HF H1 H2 HD HM.
  destruct (C77_vtk2 F l1 l2 rest m0 old HF H1 H2 HD HM) as (m & types & E & L & X).
  destruct (C77_convex2 (mkU (plane_mesh m) fc cc bcc) _ tess X) as (u & ls & As & ns & Ei & _ & _ & Em & _ & LA & HA & _).
  exists m, types, u, ls. split; [exact E|]. split; [exact Ei|]. rewrite Em. do 3 f_equal. cbn [u_mesh] in *.
  change (length (m_cells (plane_mesh m))) with (length (m_cells m)) in LA.
  apply list_ext; [rewrite map_length; nr; lia|]. intros i x y Hx Hy. rewrite nth_error_map in Hy.
  destruct (nth_error (vf_cells F) i) as [vs|] eqn:Ev; [|discriminate]. injection Hy as <-.
  assert (Hi : (i < length (vf_cells F))%nat) by (apply nth_error_Some; congruence).
  destruct (HA (N.of_nat i)) as (c & _ & _ & Q & _).
  - change (is_cell m (N.of_nat i) = true). apply N.ltb_lt. lia.
  - rewrite Nat2N.id in Q. unfold cell_polygon in Q. rewrite Nat2N.id, (nth_error_nth _ _ _ Ev) in Q. nr. congruence.
Qed.
Print Assumptions C77_file.

(** Instance: a square and two triangles, over the rectangle [0,2] x [0,1]; the areas are 1, 1/2 and 1/2. *)
Definition gridC : vtk_file R := mkVtk
  [(0,0,0); (1,0,0); (1,1,0); (0,1,0); (2,0,0); (2,1,0)]
  [[0;1;2;3]; [1;4;5]; [1;5;2]]%N [9; 5; 5]%N.
Lemma gridC_convex : convex_grid2 gridC.
Proof.
  constructor.
  - split.
    + intros vs [<-|[<-|[<-|[]]]]; (split; [nodup_N|simpl; lia]).
    + apply check_two2_ok. vm_compute. reflexivity.
    + vm_compute. discriminate.
    + vm_compute. discriminate.
    + simpl. lia.
  - intros vs v [<-|[<-|[<-|[]]]] H; simpl in H; repeat destruct H as [<-|H]; try contradiction; reflexivity.
  - intros vs [<-|[<-|[<-|[]]]] e He; simpl in He; repeat destruct He as [<-|He]; try contradiction;
      unfold plane_point; simpl; (split;
      [intros v Hv; repeat destruct Hv as [<-|Hv]; try contradiction; unfold area2, det2, px, py; simpl; lra|]).
    all: first [exists [0;0]; split; [solve [simpl; auto 10]|unfold area2, det2, px, py; simpl; lra]
               |exists [1;1]; split; [solve [simpl; auto 10]|unfold area2, det2, px, py; simpl; lra]
               |exists [1;0]; split; [solve [simpl; auto 10]|unfold area2, det2, px, py; simpl; lra]
               |exists [2;1]; split; [solve [simpl; auto 10]|unfold area2, det2, px, py; simpl; lra]
               |exists [2;0]; split; [solve [simpl; auto 10]|unfold area2, det2, px, py; simpl; lra]].
  - intros c c' vs vs' i j a b Hc Hc' [H1 H2] [H3 H4].
    assert (Hi : (i < length vs)%nat) by (apply nth_error_Some; congruence). assert (Hj : (j < length vs')%nat) by (apply nth_error_Some; congruence).
    destruct c as [|[|[|c]]]; [| | |destruct c; discriminate Hc]; injection Hc as <-;
    destruct c' as [|[|[|c']]]; try reflexivity; try (destruct c'; discriminate Hc'); injection Hc' as <-; exfalso; simpl in Hi, Hj;
    destruct i as [|[|[|[|i]]]]; try lia; destruct j as [|[|[|[|j]]]]; try lia; simpl in H1, H2, H3, H4; congruence.
Qed.
Example C77_instance : convex_grid2 gridC /\ map (fun vs => shoelace (map (plane_point gridC) vs)) (vf_cells gridC) = [1; 1/2; 1/2] /\
  exists m types u ls, loadVTK2 (vtk_header [Vw "#"; Vw "vtk"] [Vw "grid"] ++ vtk_body gridC) (emptyMesh 2) [] = Ok (m, types) /\
    initializeCenters (K := numR) false (mkU (plane_mesh m) [] [] []) = Ok u /\
    elementMeasures (K := numR) false u = Ok [ls; [1; 1/2; 1/2]].
Proof.
  assert (A : map (fun vs => shoelace (map (plane_point gridC) vs)) (vf_cells gridC) = [1; 1/2; 1/2]).
  { unfold shoelace, plane_point, px, py. cbn [gridC vf_cells vf_pts map].
    repeat match goal with |- context [nth_error ?l (N.to_nat ?i)] => let x := eval vm_compute in (N.to_nat i) in change (N.to_nat i) with x end.
    cbn [nth_error cycle_edges path_edges app map Rsum fst snd nth]. repeat (apply f_equal2; [field|]). reflexivity. }
  split; [exact gridC_convex|]. split; [exact A|].
  assert (O1 : one_line (C := R) [Vw "#"; Vw "vtk"]) by (intros [H|[H|[]]]; discriminate H).
  assert (O2 : one_line (C := R) [Vw "grid"]) by (intros [H|[]]; discriminate H).
  destruct (C77_file gridC _ _ [] (emptyMesh 2) [] false [] [] [] gridC_convex O1 O2 eq_refl eq_refl) as (m & types & u & ls & E1 & E2 & E3).
  rewrite app_nil_r in E1. rewrite A in E3. exists m, types, u, ls. auto.
Qed.

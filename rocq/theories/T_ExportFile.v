(** C99, second part: from an FPMA file of convex polyhedra to a VTK file of tetrahedra and back to the volumes. Exact real arithmetic. *)
From Coq Require Import Reals Lra Permutation List String.
Import ListNotations.
From Verif Require Import P_Base M_Conn S_Conn P_Conn M_Index M_Mesh M_Apply S_Mesh P_Apply M_Vec S_Vec P_Vec M_Geom S_Geom P_Geom
  S_Polygon P_Polygon P_Volume S_Flux P_Flux T_Flux T_Measure2 T_Normals T_Volume T_Gauss2 T_Gauss3 M_Object T_Object S_Convex P_Convex P_Convex3 T_Convex3 M_FPMA S_FPMA P_Poly P_FPMA P_Bnd
  M_VTK S_VTK M_VTKWrite S_Tess P_Tess T_VTKWrite M_VTKData S_VTKData P_VTKData T_VTKData P_VTKWrite Ex_Mesh Ex_Geom T_ConvexVTK S_ConvexFile P_ConvexFile T_ConvexFile T_Tets S_Export P_Export T_Export.
Local Open Scope nat_scope.
Local Open Scope list_scope.

(** The number of sides of the faces of a cell of the file, and of all cells. *)
Definition cell_sides {C} (F : fpma_file C) (fs : list N) : nat := list_sum (map (fun f => length (nth (N.to_nat f) (ff_polys F) [])) fs).
Definition file_sides {C} (F : fpma_file C) : nat := list_sum (map (cell_sides F) (ff_cells F)).
(** No face of a cell passes a point twice, no side is passed twice in the same direction on the surface of a cell. *)
Definition simple_file3 {C} (g : C * C * C -> point) (F : fpma_file C) (out : N -> N -> bool) : Prop :=
  forall c fs, nth_error (ff_cells F) (N.to_nat c) = Some fs ->
    (forall vs, In vs (cell_solid g F out c fs) -> NoDup vs) /\ NoDup (flat_map cycle_edges (cell_solid g F out c fs)).

Lemma sources_length c lens : length (sources c lens) = list_sum lens.
Proof. revert c. induction lens as [|n r IH]; intros c; cbn; [reflexivity|]. now rewrite app_length, repeat_length, IH. Qed.

Lemma inc_count {C V} (m : Mesh V) (F : fpma_file C) edges fs is : Forall2 (fun f p => sides_of edges (f_subs f) p) (m_faces m) (ff_polys F) ->
  incidences m fs is -> length is = cell_sides F fs.
Proof.
  intros F2 H. induction H as [|f fs fc is Hf H IH]; [reflexivity|]. unfold cell_sides in *. cbn [map list_sum fold_right]. rewrite app_length, map_length, IH. f_equal.
  destruct (proj1 (Forall2_nth _ _ _) F2) as [LF FN].
  destruct (nth_error (ff_polys F) (N.to_nat f)) as [p|] eqn:Ep.
  2:{ apply nth_error_None in Ep. assert (N.to_nat f < length (m_faces m)) by (apply nth_error_Some; congruence). lia. }
  rewrite (nth_error_nth _ _ _ Ep). exact (proj1 (FN _ _ _ Hf Ep)).
Qed.

(** C99. A file of simple convex polyhedra in the FPMA format is loaded, the centres are initialized (with either method) and the mesh is written
    in the VTK format: if no two of the centres have the same key this succeeds, and the written file can be loaded. It has a tetrahedron
    for every side of every face of every cell, in the order of the cells; recomputing the measures gives positive volumes, those of the
    tetrahedra of a cell add up to the volume of the polyhedron of the file, and all to the volume of all. *)
Theorem C99_fpma : forall C (g : C * C * C -> point) reserve reserve' ori ccenter fcenter key (F : fpma_file C) out rest m name tess fc cc bcc u
    (m0 : Mesh (C * C * C)) old tess1 tess1' fc1 cc1 bcc1,
  (forall p, length (g p) = 3) -> convex_file3 g F out -> simple_file3 g F out -> (reserve = 0 \/ forall p, In p (ff_polys F) -> length p <= reserve) ->
  loadFPMA reserve (layout F ++ rest) (emptyMesh 3) = Ok m -> initializeCenters (K := numR) tess (mkU (with_points g m) fc cc bcc) = Ok u ->
  (forall c x, nth_error (u_cc u) (N.to_nat c) = Some x -> g (ccenter c) = x) ->
  (forall f x, nth_error (u_fc u) (N.to_nat f) = Some x -> g (fcenter f) = x) ->
  centres_told m ccenter fcenter key -> (N.of_nat (6 * file_sides F) <= INVALID)%N ->
  one_line name -> (reserve' = 0 \/ 3 <= reserve') -> m_dim m0 = 3 -> length (m_mid m0) = 1 ->
  let srcs := sources 0 (map (cell_sides F) (ff_cells F)) in
  exists text m' types' u' ls' Fs' Vs',
    writeVTK3 ori ccenter fcenter key m (repeat POLYHEDRON (length (m_cells m))) = Ok text /\
    loadVTK3 reserve' (writeHeader name ++ text) m0 old = Ok (m', types') /\
    initializeCenters (K := numR) tess1 (mkU (with_points g m') fc1 cc1 bcc1) = Ok u' /\ elementMeasures (K := numR) tess1' u' = Ok [ls'; Fs'; Vs'] /\
    length Vs' = file_sides F /\ (forall V, In V Vs' -> 0 < V)%R /\
    (forall c fs, nth_error (ff_cells F) (N.to_nat c) = Some fs ->
       sum_of c srcs Vs' = poly_volume (cell_solid g F out c fs) /\ (0 < poly_volume (cell_solid g F out c fs))%R) /\
    Rsum Vs' = Rsum (map (fun cf => poly_volume (cell_solid g F out (N.of_nat (fst cf)) (snd cf))) (combine (seq 0 (length (ff_cells F))) (ff_cells F))).
Proof.
  intros C g reserve reserve' ori ccenter fcenter key F out rest m name tess fc cc bcc u m0 old tess1 tess1' fc1 cc1 bcc1
    L3 CF SF HR E EU Hc Hf CT LI HN HR' HD HM srcs.
  destruct (C78_fpma C g reserve F out rest L3 CF HR) as (m' & E' & Lc & Ri & X). assert (m' = m) by congruence. subst m'. clear E'.
  destruct (load_spec reserve F rest (cf_file _ _ _ CF) HR) as (m' & edges & E' & D & _ & _ & _ & F2 & _). assert (m' = m) by congruence. subst m'. clear E'.
  set (poly := fun c f => map (point_of g (ff_verts F)) (face_seen F out c f)) in *.
  pose proof (wp_wf_back g m (geo_wf _ (cx3_geo _ _ X))) as W.
  assert (RF : forall c fs, ring m c fs -> nth_error (ff_cells F) (N.to_nat c) = Some fs).
  { intros c fs HRc. destruct (nth_error (ff_cells F) (N.to_nat c)) as [fs'|] eqn:Ef.
    - f_equal. apply (ring_det (with_points g m) c); [exact (Ri c fs' Ef)|]. now apply wp_ring.
    - exfalso. apply nth_error_None in Ef. destruct HRc as (f0 & r & _ & H0 & _). 
      assert (N.to_nat c < length (m_cells m)) by (apply nth_error_Some; congruence). lia. }
  assert (SC : simple_cells m poly).
  { intros c fs HRc. destruct (SF c fs (RF c fs HRc)) as [S1 S2]. split; [|exact S2]. intros f Hin. apply S1. unfold cell_solid. apply in_map_iff. exists f. auto. }
  pose proof (C99_computed_centres C g m poly ccenter fcenter tess fc cc bcc u X EU Hc Hf) as CI.
  assert (HT : forall c, (c < N.of_nat (length (m_cells m)))%N -> exists ty, nth_error (repeat POLYHEDRON (length (m_cells m))) (N.to_nat c) = Some ty /\ native3 ty = false).
  { intros c Hl. exists POLYHEDRON. split; [apply nth_error_repeat; lia|reflexivity]. }
  destruct (C29_total ori ccenter fcenter key m _ W D HT) as (t & Et).
  destruct (C29_tessellation ori ccenter fcenter key m _ t W D Et) as (blocks & LB & EC & HB & Hback & _).
  assert (EL : map (@length _) blocks = map (cell_sides F) (ff_cells F)).
  { apply nth_error_ext. intros i. rewrite !nth_error_map. destruct (nth_error blocks i) as [b|] eqn:Hb.
    - destruct (HB (N.of_nat i) b) as (ty & Hty & HW); [rewrite Nat2N.id; exact Hb|].
      assert (Hi : i < length blocks) by (apply nth_error_Some; congruence).
      destruct (HT (N.of_nat i)) as (ty' & Hty' & Hn); [lia|]. assert (ty' = ty) by congruence. subst ty'.
      unfold written_for in HW. rewrite Hn in HW. destruct HW as (fs & is & R & I & T). pose proof (RF _ _ R) as Q. rewrite Nat2N.id in Q. rewrite Q. cbn [option_map].
      f_equal. rewrite <- (Forall2_length' _ _ _ T). exact (inc_count m F edges fs is F2 I).
    - apply nth_error_None in Hb. destruct (nth_error (ff_cells F) i) eqn:Q; [|reflexivity]. exfalso. assert (i < length (ff_cells F)) by (apply nth_error_Some; congruence). lia. }
  assert (LT : length (t_cells t) = file_sides F).
  { rewrite EC. unfold file_sides. rewrite <- EL. rewrite concat_length'. reflexivity. }
  destruct (C99_export C g reserve' ori ccenter fcenter key m _ t poly name m0 old tess1 tess1' fc1 cc1 bcc1 tess true fc cc bcc
    L3 X SC CI CT HT Et) as (text & m' & types' & u' & ls' & Fs' & Vs' & u2 & ls & Fs & Vs & srcs' & H1 & H2 & H3 & H4 & H5 & H6 & H7 & H8 & H9 & H10 & H11 & H12 & H13 & _);
    [rewrite LT; exact LI|exact HN|exact HR'|exact HD|exact HM|].
  assert (ES : srcs' = srcs).
  { unfold srcs. rewrite <- EL. apply nth_error_ext. intros i.
    assert (LS : length srcs' = length (sources 0 (map (@length _) blocks))).
    { rewrite EL, sources_length. change (list_sum (map (cell_sides F) (ff_cells F))) with (file_sides F). rewrite <- LT. etransitivity; [exact H9|exact H7]. }
    destruct (nth_error srcs' i) as [c|] eqn:Ei.
    - pose proof (proj2 (H10 (N.of_nat i) c)) as Q. rewrite Nat2N.id in Q. apply Hback in Q; [|exact Ei]. rewrite Nat2N.id in Q. symmetry. apply Q.
    - symmetry. apply nth_error_None. apply nth_error_None in Ei. lia. }
  rewrite ES in *. clear ES H10.
  destruct (convex_results (with_points g m) poly (ff_cells F) tess true true fc cc bcc X Lc Ri) as (u3 & ls3 & Fs3 & Vs3 & ns3 & E3 & _ & E4 & _ & LV3 & HV3).
  assert (u3 = u2) by congruence. subst u3.
  assert (Vs3 = Vs). { pose proof (eq_trans (eq_sym E4) H6) as Z. injection Z as _ _ Z. exact Z. } subst Vs3.
  exists text, m', types', u', ls', Fs', Vs'. splits; auto.
  - etransitivity; [exact H7|exact LT].
  - intros c fs Hcf. destruct (HV3 c fs Hcf) as (Q & P & _). split; [|exact P]. exact (proj2 (H12 c _ Q)).
  - etransitivity; [exact H13|]. f_equal. apply nth_error_ext. intros i. rewrite nth_error_map.
    destruct (nth_error (ff_cells F) i) as [fs|] eqn:Ef.
    + pose proof (HV3 (N.of_nat i) fs) as Q. rewrite Nat2N.id in Q. destruct (Q Ef) as (Q1 & _). etransitivity; [exact Q1|].
      assert (Hi : i < length (ff_cells F)) by (apply nth_error_Some; congruence).
      assert (Q2 : nth_error (combine (seq 0 (length (ff_cells F))) (ff_cells F)) i = Some (i, fs)).
      { apply nth_error_combine. split; [|exact Ef]. rewrite (nth_error_nth' _ 0) by (rewrite seq_length; exact Hi). now rewrite seq_nth. }
      rewrite Q2. reflexivity.
    + apply nth_error_None in Ef. etransitivity; [apply nth_error_None; assert (length Vs = length (ff_cells F)) by exact LV3; nr; lia|].
      symmetry. destruct (nth_error (combine _ _) i) eqn:Z; [|reflexivity]. exfalso. assert (i < length (combine (seq 0 (length (ff_cells F))) (ff_cells F))) by (apply nth_error_Some; congruence).
      rewrite combine_length, seq_length in H. lia.
Qed.
Print Assumptions C99_fpma.

(** * The two tetrahedra as an FPMA file, coordinates in twelfths *)
Definition pairF : fpma_file Z :=
  mkFile [(0,0,0);(12,0,0);(0,12,0);(0,0,12);(12,12,12)]%Z
         [[1;2;3]; [0;3;2]; [0;1;3]; [0;2;1]; [4;2;3]; [4;3;1]; [4;1;2]]%N [[0;1;2;3]; [0;4;5;6]]%N.
Definition pairOut (c f : N) : bool := negb (N.eqb c 1 && N.eqb f 0).
Lemma pair_point v p : nth_error [[0;0;0]; [1;0;0]; [0;1;0]; [0;0;1]; [1;1;1]]%R (N.to_nat v) = Some p -> point_of pt12 (ff_verts pairF) v = p.
Proof.
  unfold point_of. intros H. assert (L : N.to_nat v < 5) by (apply (nth_error_Some [[0;0;0]; [1;0;0]; [0;1;0]; [0;0;1]; [1;1;1]]%R); congruence).
  assert (E0 : (0 / 12 = 0)%R) by lra. assert (E1 : (12 / 12 = 1)%R) by lra.
  destruct (N.to_nat v) as [|[|[|[|[|]]]]]; try lia; cbn in H; injection H as <-; cbn; unfold pt12; cbn [fst snd]; rewrite ?E0, ?E1; reflexivity.
Qed.
Lemma pair_solid : let S0 := cell_solid pt12 pairF pairOut 0 [0; 1; 2; 3]%N in let S1 := cell_solid pt12 pairF pairOut 1 [0; 4; 5; 6]%N in
  (convex_solid S0 /\ poly_volume S0 = (1 / 6)%R /\ (forall vs, In vs S0 -> NoDup vs) /\ NoDup (flat_map cycle_edges S0)) /\
  (convex_solid S1 /\ poly_volume S1 = (1 / 3)%R /\ (forall vs, In vs S1 -> NoDup vs) /\ NoDup (flat_map cycle_edges S1)).
Proof.
  set (a := [0; 0; 0]%R). set (b := [1; 0; 0]%R). set (c := [0; 1; 0]%R). set (d := [0; 0; 1]%R). set (e := [1; 1; 1]%R).
  assert (Ea := pair_point 0 a eq_refl). assert (Eb := pair_point 1 b eq_refl). assert (Ec := pair_point 2 c eq_refl). assert (Ed := pair_point 3 d eq_refl). assert (Ee := pair_point 4 e eq_refl).
  assert (X0 : cell_solid pt12 pairF pairOut 0 [0; 1; 2; 3]%N = [[b; c; d]; [a; d; c]; [a; b; d]; [a; c; b]]).
  { unfold cell_solid. cbn [map]. change (face_seen pairF pairOut 0 0) with [1;2;3]%N. change (face_seen pairF pairOut 0 1) with [0;3;2]%N. change (face_seen pairF pairOut 0 2) with [0;1;3]%N. change (face_seen pairF pairOut 0 3) with [0;2;1]%N. cbn [map]. now rewrite Ea, Eb, Ec, Ed. }
  assert (X1 : cell_solid pt12 pairF pairOut 1 [0; 4; 5; 6]%N = [[d; c; b]; [e; c; d]; [e; d; b]; [e; b; c]]).
  { unfold cell_solid. cbn [map]. change (face_seen pairF pairOut 1 0) with [3;2;1]%N. change (face_seen pairF pairOut 1 4) with [4;2;3]%N. change (face_seen pairF pairOut 1 5) with [4;3;1]%N. change (face_seen pairF pairOut 1 6) with [4;1;2]%N. cbn [map]. now rewrite Eb, Ec, Ed, Ee. }
  cbv zeta. rewrite X0, X1. clear.
  assert (N1 : a <> b) by (unfold a, b; intros K; injection K; intros; lra). assert (N2 : a <> c) by (unfold a, c; intros K; injection K; intros; lra).
  assert (N3 : a <> d) by (unfold a, d; intros K; injection K; intros; lra). assert (N4 : b <> c) by (unfold b, c; intros K; injection K; intros; lra).
  assert (N5 : b <> d) by (unfold b, d; intros K; injection K; intros; lra). assert (N6 : c <> d) by (unfold c, d; intros K; injection K; intros; lra).
  assert (N7 : e <> b) by (unfold e, b; intros K; injection K; intros; lra). assert (N8 : e <> c) by (unfold e, c; intros K; injection K; intros; lra).
  assert (N9 : e <> d) by (unfold e, d; intros K; injection K; intros; lra).
  split; (split; [|split; [|split]]).
  - apply (convex_four _ a b c d); try reflexivity.
    + unfold closed_surface. cbn [flat_map cycle_edges path_edges app map]. unfold rev_edge. cbn [fst snd]. T_Volume.perm_tac.
    + intros f [<-|[<-|[<-|[<-|[]]]]]; [exists b, c, d, a|exists a, d, c, b|exists a, b, d, c|exists a, c, b, d];
        (split; [reflexivity|]; split; [unfold vol6, det3, px, py, pz, a, b, c, d; cbn [nth]; lra|intros x; simpl; tauto]).
    + intros x Hx. simpl in Hx. destruct Hx as [<-|[<-|[<-|[<-|[]]]]];
        [exists [a; d; c]|exists [b; c; d]|exists [b; c; d]|exists [b; c; d]]; simpl; tauto.
  - unfold poly_volume, face_fan, vol6, det3, px, py, pz, Rsum, a, b, c, d; cbn. lra.
  - intros vs Hin. simpl in Hin. repeat (destruct Hin as [<-|Hin]; [repeat constructor; simpl; intuition congruence|]). destruct Hin.
  - cbn [flat_map cycle_edges path_edges app]. repeat constructor; simpl; intros K; repeat (destruct K as [K|K]; [injection K; intros; congruence|]); exact K.
  - apply (convex_four _ e b c d); try reflexivity.
    + unfold closed_surface. cbn [flat_map cycle_edges path_edges app map]. unfold rev_edge. cbn [fst snd]. T_Volume.perm_tac.
    + intros f [<-|[<-|[<-|[<-|[]]]]]; [exists d, c, b, e|exists e, c, d, b|exists e, d, b, c|exists e, b, c, d];
        (split; [reflexivity|]; split; [unfold vol6, det3, px, py, pz, e, b, c, d; cbn [nth]; lra|intros x; simpl; tauto]).
    + intros x Hx. simpl in Hx. destruct Hx as [<-|[<-|[<-|[<-|[]]]]];
        [exists [e; c; d]|exists [d; c; b]|exists [d; c; b]|exists [d; c; b]]; simpl; tauto.
  - unfold poly_volume, face_fan, vol6, det3, px, py, pz, Rsum, e, b, c, d; cbn. lra.
  - intros vs Hin. simpl in Hin. repeat (destruct Hin as [<-|Hin]; [repeat constructor; simpl; intuition congruence|]). destruct Hin.
  - cbn [flat_map cycle_edges path_edges app]. repeat constructor; simpl; intros K; repeat (destruct K as [K|K]; [injection K; intros; congruence|]); exact K.
Qed.
Lemma pair_cells c fs : nth_error (ff_cells pairF) (N.to_nat c) = Some fs -> c = 0%N /\ fs = [0; 1; 2; 3]%N \/ c = 1%N /\ fs = [0; 4; 5; 6]%N.
Proof.
  intros H. assert (L : N.to_nat c < 2) by (apply (nth_error_Some (ff_cells pairF)); congruence).
  assert (c = 0 \/ c = 1)%N as [-> | ->] by lia; cbn in H; injection H as <-; auto.
Qed.
Lemma pair_convex : convex_file3 pt12 pairF pairOut /\ simple_file3 pt12 pairF pairOut.
Proof.
  pose proof pair_solid as (S0 & S1). split.
  - constructor.
    + constructor; cbn [pairF ff_polys ff_cells length].
      * unfold INVALID. lia.
      * unfold INVALID. lia.
      * intros fs [<-|[<-|[]]]; (split; [discriminate|]); (split; [apply nodupb_sound; reflexivity|]);
          intros f Hf; simpl in Hf; repeat (destruct Hf as [<-|Hf]; [reflexivity|]); destruct Hf.
      * intros f. unfold listing. cbn [length seqN seq map filter]. destruct (existsb _ _); destruct (existsb _ _); simpl; lia.
    + cbn. lia.
    + cbn [pairF ff_polys ff_verts]. intros p Hp. simpl in Hp.
      repeat (destruct Hp as [<-|Hp]; [split; [split; [apply nodupb_sound; reflexivity|cbn; lia]|];
        intros v Hv; simpl in Hv; repeat (destruct Hv as [<-|Hv]; [reflexivity|]); destruct Hv|]). destruct Hp.
    + intros f Hf. cbn in Hf. destruct (N.le_gt_cases 4 f) as [H4|H4].
      * exists [0; 4; 5; 6]%N. split; [right; left; reflexivity|]. assert (f = 4 \/ f = 5 \/ f = 6)%N as [-> | [-> | ->]] by lia; simpl; auto.
      * exists [0; 1; 2; 3]%N. split; [left; reflexivity|]. assert (f = 0 \/ f = 1 \/ f = 2 \/ f = 3)%N as [-> | [-> | [-> | ->]]] by lia; simpl; auto.
    + intros c fs Hc. destruct (pair_cells c fs Hc) as [[-> ->]|[-> ->]]; [apply S0|apply S1].
    + intros f c c' fs fs' Hc Hc' Hf Hf' Ne.
      destruct (pair_cells c fs Hc) as [[-> ->]|[-> ->]], (pair_cells c' fs' Hc') as [[-> ->]|[-> ->]]; try (exfalso; apply Ne; reflexivity).
      * simpl in Hf, Hf'. repeat destruct Hf as [<-|Hf]; try destruct Hf; repeat destruct Hf' as [Q|Hf']; try destruct Hf'; try discriminate Q; reflexivity.
      * simpl in Hf, Hf'. repeat destruct Hf as [<-|Hf]; try destruct Hf; repeat destruct Hf' as [Q|Hf']; try destruct Hf'; try discriminate Q; reflexivity.
  - intros c fs Hc. destruct (pair_cells c fs Hc) as [[-> ->]|[-> ->]]; [destruct S0 as (_ & _ & S)|destruct S1 as (_ & _ & S)]; exact S.
Qed.
Definition pairMesh : Mesh (Z * Z * Z) := Eval vm_compute in match loadFPMA 0 (layout pairF ++ []) (emptyMesh 3) with Ok m => m | _ => emptyMesh 3 end.
Definition pairU : UMesh numR :=
  mkU (with_points pt12 pairMesh) (map pt12 (map face12 [0; 1; 2; 3; 4; 5; 6]%N)) (map pt12 (map cell12 [0; 1]%N)) [].
Lemma pair_centres : initializeCenters (K := numR) false (mkU (with_points pt12 pairMesh) [] [] []) = Ok pairU.
Proof.
  unfold pairU, pairMesh. cbv -[IZR Rplus Rmult Rinv Rminus Ropp Rdiv INR]. apply f_equal. apply f_equal3; try reflexivity.
  - repeat (apply f_equal2; [repeat (apply f_equal2; [lra|]); reflexivity|]). reflexivity.
  - repeat (apply f_equal2; [repeat (apply f_equal2; [lra|]); reflexivity|]). reflexivity.
Qed.
Lemma pair_told : centres_told pairMesh cell12 face12 zkey.
Proof.
  assert (Hc : forall c, (c < N.of_nat (length (m_cells pairMesh)))%N -> c = 0%N \/ c = 1%N) by (intros c H; change (c < 2)%N in H; lia).
  assert (Hf : forall f, (f < N.of_nat (length (m_faces pairMesh)))%N -> In f [0; 1; 2; 3; 4; 5; 6]%N).
  { intros f H. change (f < 7)%N in H. assert (f = 0 \/ f = 1 \/ f = 2 \/ f = 3 \/ f = 4 \/ f = 5 \/ f = 6)%N by lia. simpl. intuition. }
  constructor.
  - intros c c' H H' E. destruct (Hc c H) as [-> | ->], (Hc c' H') as [-> | ->]; try reflexivity; vm_compute in E; discriminate E.
  - intros f f' H H' E. apply Hf in H. apply Hf in H'. simpl in H, H'.
    repeat destruct H as [<-|H]; try destruct H; repeat destruct H' as [<-|H']; try destruct H'; try reflexivity; vm_compute in E; discriminate E.
  - intros c f H H' E. apply Hf in H'. simpl in H'. destruct (Hc c H) as [-> | ->]; repeat destruct H' as [<-|H']; try destruct H'; vm_compute in E; discriminate E.
Qed.
(** The two tetrahedra are written as 24, of total volume 1/2. *)
Example C99_fpma_instance : convex_file3 pt12 pairF pairOut /\ simple_file3 pt12 pairF pairOut /\
  exists text m' types' u' ls' Fs' Vs',
    loadFPMA 0 (layout pairF ++ []) (emptyMesh 3) = Ok pairMesh /\
    writeVTK3 [] cell12 face12 zkey pairMesh [POLYHEDRON; POLYHEDRON] = Ok text /\
    loadVTK3 0 (writeHeader [Vw "pair"] ++ text) (emptyMesh 3) [] = Ok (m', types') /\
    initializeCenters (K := numR) true (mkU (with_points pt12 m') [] [] []) = Ok u' /\ elementMeasures (K := numR) true u' = Ok [ls'; Fs'; Vs'] /\
    length Vs' = 24 /\ sum_of 0 (repeat 0%N 12 ++ repeat 1%N 12) Vs' = (1 / 6)%R /\ sum_of 1 (repeat 0%N 12 ++ repeat 1%N 12) Vs' = (1 / 3)%R.
Proof.
  destruct pair_convex as [CF SF]. split; [exact CF|]. split; [exact SF|].
  assert (EL : loadFPMA 0 (layout pairF ++ []) (emptyMesh 3) = Ok pairMesh) by (vm_compute; reflexivity).
  destruct (C99_fpma Z pt12 0 0 [] cell12 face12 zkey pairF pairOut [] pairMesh [Vw "pair"] false [] [] [] pairU (emptyMesh 3) [] true true [] [] [])
    as (text & m' & types' & u' & ls' & Fs' & Vs' & H1 & H2 & H3 & H4 & H5 & _ & H7 & _).
  - intros p. reflexivity.
  - exact CF.
  - exact SF.
  - left. reflexivity.
  - exact EL.
  - exact pair_centres.
  - intros c x Hx. unfold pairU in Hx. cbn [u_cc] in Hx. assert (L : N.to_nat c < 2) by (apply (nth_error_Some (map pt12 (map cell12 [0; 1]%N))); intros Z; assert (Q : None = Some x) by exact (eq_trans (eq_sym Z) Hx); discriminate Q).
    assert (c = 0 \/ c = 1)%N as [-> | ->] by lia; cbn -[pt12] in Hx; injection Hx as <-; reflexivity.
  - intros f x Hx. unfold pairU in Hx. cbn [u_fc] in Hx. assert (L : N.to_nat f < 7) by (apply (nth_error_Some (map pt12 (map face12 [0; 1; 2; 3; 4; 5; 6]%N))); intros Z; assert (Q : None = Some x) by exact (eq_trans (eq_sym Z) Hx); discriminate Q).
    assert (f = 0 \/ f = 1 \/ f = 2 \/ f = 3 \/ f = 4 \/ f = 5 \/ f = 6)%N as [-> | [-> | [-> | [-> | [-> | [-> | ->]]]]]] by lia; cbn -[pt12] in Hx; injection Hx as <-; reflexivity.
  - exact pair_told.
  - vm_compute. discriminate.
  - unfold one_line. simpl. intuition discriminate.
  - left. reflexivity.
  - reflexivity.
  - reflexivity.
  - exists text, m', types', u', ls', Fs', Vs'. destruct pair_solid as ((_ & V0 & _) & (_ & V1 & _)). splits; auto.
    + exact (eq_trans (proj1 (H7 0%N _ eq_refl)) V0).
    + exact (eq_trans (proj1 (H7 1%N _ eq_refl)) V1).
Qed.

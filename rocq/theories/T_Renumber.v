(** Theorems about other numberings of the elements of a mesh (C107). *)
From Coq Require Import Permutation.
From Verif Require Import P_Base M_Conn M_Index M_Mesh M_Apply S_Mesh P_Apply M_Connections S_Connections P_Connections M_Vec M_Geom M_GeomN S_Renumber P_Renumber P_Renumber2 Ex_Mesh S_Geom Ex_Geom.
Open Scope N_scope.

(** C107. A mesh with other numbers is well formed, and every number of the other mesh is the new number of something. *)
Theorem C107_wf : forall V p (m m' : Mesh V), wf_mesh m -> renumbered p m m' ->
  wf_mesh m' /\ forall k, (k <= m_dim m)%nat -> n_elems m' k = n_elems m k /\ forall j, j < N.of_nat (n_elems m' k) -> exists i, i < N.of_nat (n_elems m k) /\ p k i = j.
Proof.
  intros V p m m' W HR. split; [eapply renumbered_wf; eassumption|]. intros k Hk. split; [apply (n_elems_same p m m' HR (wf_dim m W) k Hk)|].
  intros j Hj. rewrite (n_elems_same p m m' HR (wf_dim m W) k Hk) in Hj. apply numbering_onto; [apply (num p m m' HR), Hk|exact Hj].
Qed.
Print Assumptions C107_wf.

(** C107. A traversal visits the same elements in the same order. *)
Theorem C107_apply : forall V p (m m' : Mesh V) s t i calls, wf_mesh m -> renumbered p m m' -> (t <= s <= m_dim m)%nat ->
  apply1 m s t i = Ok calls -> apply1 m' s t (p s i) = Ok (map (fun c => (p s (fst c), p t (snd c))) calls).
Proof.
  intros V p m m' s t i calls W HR Hst H. pose proof (wf_dim m W) as H2. unfold apply1 in *. apply bind_ok in H as (l & H & E). injection E as <-.
  destruct (run_ret p m m' HR H2 (s - t) s i ltac:(lia) l H) as (l' & -> & ->). cbn [bind]. f_equal. rewrite !map_map. apply map_ext. intros x.
  replace (s - (s - t))%nat with t by lia. destruct (Nat.ltb_spec t s); [reflexivity|]. replace t with s by lia. reflexivity.
Qed.
Print Assumptions C107_apply.

(** C107. Connections and neighbours are the same elements (listed in the order of the new numbers). *)
Theorem C107_connections : forall V p (m m' : Mesh V) s t, wf_mesh m -> renumbered p m m' -> (s <= m_dim m)%nat -> (t <= m_dim m)%nat ->
  exists res res', connections m s t = Ok res /\ connections m' s t = Ok res' /\ length res' = length res /\
    forall i l l', nth_error res (N.to_nat i) = Some l -> nth_error res' (N.to_nat (p s i)) = Some l' -> Permutation l' (map (p t) l).
Proof.
  intros V p m m' s t W HR Hs Ht. pose proof (renumbered_wf p m m' HR W) as W'. pose proof (rn_dim _ _ _ HR) as ED.
  destruct (connections_spec m s t W Hs Ht) as (res & E & L & H). destruct (connections_spec m' s t W' ltac:(lia) ltac:(lia)) as (res' & E' & L' & H').
  exists res, res'. refine (conj E (conj E' (conj _ _))); [rewrite L, L'; apply (n_elems_same p m m' HR (wf_dim m W)), Hs|].
  intros i l l' Hl Hl'. destruct (H _ _ Hl) as [A B]. destruct (H' _ _ Hl') as [A' B']. rewrite N2Nat.id in B, B'. unfold exactly in B, B'. apply NoDup_Permutation.
  - now apply increasing_NoDup.
  - apply (NoDup_map_p p m m' HR t l Ht). now apply increasing_NoDup.
  - intros j'. rewrite (B' j'). destruct (onto p m m' HR t j' Ht) as (j & <- & _). rewrite <- (connected_iff p m m' HR W) by assumption. rewrite <- B, in_map_iff. split.
    + intros Hj. now exists j.
    + intros (x & Ex & Hx). apply (pf_inj p m m' HR) in Ex; [|exact Ht]. now subst.
Qed.
Print Assumptions C107_connections.

Theorem C107_neighbors : forall V p (m m' : Mesh V) a b c, wf_mesh m -> renumbered p m m' -> (a <= m_dim m)%nat -> (b <= m_dim m)%nat -> (c <= m_dim m)%nat ->
  exists res res', neighbors m a b c = Ok res /\ neighbors m' a b c = Ok res' /\ length res' = length res /\
    forall i l l', nth_error res (N.to_nat i) = Some l -> nth_error res' (N.to_nat (p a i)) = Some l' -> Permutation l' (map (p c) l).
Proof.
  intros V p m m' a b c W HR Ha Hb Hc. pose proof (renumbered_wf p m m' HR W) as W'. pose proof (rn_dim _ _ _ HR) as ED.
  destruct (neighbors_spec m a b c W Ha Hb Hc) as (res & E & L & H). destruct (neighbors_spec m' a b c W' ltac:(lia) ltac:(lia) ltac:(lia)) as (res' & E' & L' & H').
  exists res, res'. refine (conj E (conj E' (conj _ _))); [rewrite L, L'; apply (n_elems_same p m m' HR (wf_dim m W)), Ha|].
  intros i l l' Hl Hl'. destruct (H _ _ Hl) as [A B]. destruct (H' _ _ Hl') as [A' B']. rewrite N2Nat.id in B, B'. unfold exactly in B, B'. apply NoDup_Permutation.
  - now apply increasing_NoDup.
  - apply (NoDup_map_p p m m' HR c l Hc). now apply increasing_NoDup.
  - intros j'. rewrite (B' j'). destruct (onto p m m' HR c j' Hc) as (j & <- & _). rewrite <- (neighbor_iff p m m' HR W) by assumption. rewrite <- B, in_map_iff. split.
    + intros Hj. now exists j.
    + intros (x & Ex & Hx). apply (pf_inj p m m' HR) in Ex; [|exact Hc]. now subst.
Qed.
Print Assumptions C107_neighbors.

(** ** Geometry. [K] is any kind of numbers: the results are the same numbers, also with rounding. *)
Section Geometry.
Context {K : Num}.
Notation vecK := (vec K).
Variables (p : nat -> N -> N) (m m' : Mesh vecK).
Hypothesis W : wf_mesh m.
Hypothesis HR : renumbered p m m'.
Let H2 := wf_dim m W.
(** Tables of all dimensions 1, 2, ... *)
Definition shuffled_all {A} (cs cs' : list (list A)) : Prop :=
  length cs' = length cs /\ forall j t t', nth_error cs j = Some t -> nth_error cs' j = Some t' -> shuffled (p (S j)) t t'.
Lemma tab_shuffled {A} k (t t' : list A) : tab p m k t t' -> shuffled (p k) t t'.
Proof. now intros [_ H]. Qed.
Lemma tabs_shuffled {A} (t t' : list (list A)) : tabs p m t t' -> shuffled_all t t'.
Proof. intros [L G]. split; [exact L|]. intros j x x' Hx Hx'. apply (tab_shuffled (S j)). now apply (G j). Qed.

Theorem C107_centers : forall tess, ret shuffled_all (computeCenters tess m) (computeCenters tess m').
Proof. intros tess. eapply ret_mono; [apply tabs_shuffled|]. apply (computeCenters_ret p m m' HR H2). Qed.

Theorem C107_normals2 : ret (shuffled (p 1%nat)) (computeNormals2 m) (computeNormals2 m').
Proof. eapply ret_mono; [apply tab_shuffled|]. apply (normals2_ret p m m' HR H2). Qed.

Theorem C107_space : forall cc fc cc' fc', m_dim m = 3%nat -> length cc = n_elems m 3 -> length fc = n_elems m 2 -> shuffled (p 3%nat) cc cc' -> shuffled (p 2%nat) fc fc' ->
  ret (shuffled (p 2%nat)) (computeNormals3 m cc fc) (computeNormals3 m' cc' fc') /\
  ret (shuffled (p 2%nat)) (computeNormals3_tess m cc fc) (computeNormals3_tess m' cc' fc') /\
  ret (shuffled (p 2%nat)) (edgesOrientation m cc fc) (edgesOrientation m' cc' fc') /\
  ret (fun x y => shuffled (p 1%nat) (fst (fst x)) (fst (fst y)) /\ shuffled (p 2%nat) (snd (fst x)) (snd (fst y)) /\ shuffled (p 3%nat) (snd x) (snd y))
    (computeMeasures3 m cc fc) (computeMeasures3 m' cc' fc').
Proof.
  intros cc fc cc' fc' Hd Lc Lf Sc Sf. assert (TC : tab p m 3 cc cc') by now split. assert (TF : tab p m 2 fc fc') by now split.
  refine (conj _ (conj _ (conj _ _))).
  - eapply ret_mono; [apply tab_shuffled|]. now apply (normals3_ret p m m' HR H2).
  - eapply ret_mono; [apply tab_shuffled|]. now apply (normals3_tess_ret p m m' HR H2).
  - eapply ret_mono; [apply tab_shuffled|]. now apply (orientation_ret p m m' HR H2).
  - eapply ret_mono; [|now apply (measures3_ret p m m' HR H2)]. intros x y (A & B & C).
    refine (conj _ (conj _ _)); [exact (tab_shuffled 1 _ _ A)|exact (tab_shuffled 2 _ _ B)|exact (tab_shuffled 3 _ _ C)].
Qed.

Theorem C107_measures2 : forall cc cc', m_dim m = 2%nat -> length cc = n_elems m 2 -> shuffled (p 2%nat) cc cc' ->
  ret (fun x y => shuffled (p 1%nat) (fst x) (fst y) /\ shuffled (p 2%nat) (snd x) (snd y)) (computeMeasures2 m cc) (computeMeasures2 m' cc').
Proof.
  intros cc cc' Hd L S. eapply ret_mono; [|apply (measures2_ret p m m' HR H2 cc cc' Hd); now split].
  intros x y [A B]. split; [exact (tab_shuffled 1 _ _ A)|exact (tab_shuffled 2 _ _ B)].
Qed.

Theorem C107_distance : forall n cc fc bcc cc' fc', length cc = n_elems m (m_dim m) -> length fc = n_elems m (m_dim m - 1) ->
  shuffled (p (m_dim m)) cc cc' -> shuffled (p (m_dim m - 1)%nat) fc fc' ->
  ret (shuffled (p (m_dim m - 1)%nat)) (cellsDistance m cc fc bcc) (cellsDistance m' cc' fc' bcc) /\
  ret (shuffled (p (m_dim m - 1)%nat)) (centerDifference n m cc fc bcc) (centerDifference n m' cc' fc' bcc).
Proof.
  intros n cc fc bcc cc' fc' Lc Lf Sc Sf. split.
  - eapply ret_mono; [apply tab_shuffled|]. apply (distance_ret p m m' HR H2); now split.
  - eapply ret_mono; [apply tab_shuffled|]. apply (difference_ret p m m' HR H2); now split.
Qed.

Lemma level_tabs cs cs' : computeCenters false m = Ok cs -> computeCenters false m' = Ok cs' -> tabs p m cs cs' /\ length cs = m_dim m.
Proof.
  intros E E'. destruct (computeCenters_ret p m m' HR H2 false cs E) as (c & E2 & T). assert (c = cs') by congruence. subst c. split; [exact T|].
  unfold computeCenters in E. apply bind_ok in E as (e & _ & E). apply bind_ok in E as (r & E & E0). injection E0 as <-. cbn [length].
  assert (G : forall n st k sub r, center_levels false n m st k sub = Ok r -> length r = st).
  { clear. induction st as [|st IH]; intros k sub r E; cbn [center_levels] in E; [injection E as <-; reflexivity|].
    apply bind_ok in E as (l & _ & E). apply bind_ok in E as (q & E & E0). injection E0 as <-. cbn. f_equal. eapply IH, E. }
  rewrite (G _ _ _ _ _ E). lia.
Qed.
Theorem C107_any :
  ret shuffled_all (cs <- computeCenters false m ;; computeMeasuresN m cs) (cs <- computeCenters false m' ;; computeMeasuresN m' cs) /\
  ret (shuffled (p (m_dim m - 1)%nat)) (cs <- computeCenters false m ;; computeNormalsN m cs) (cs <- computeCenters false m' ;; computeNormalsN m' cs).
Proof.
  split; intros r E; apply bind_ok in E as (cs & E1 & E); destruct (C107_centers false cs E1) as (cs' & E1' & _);
    destruct (level_tabs cs cs' E1 E1') as [T L]; rewrite E1'; cbn [bind].
  - destruct (measuresN_ret p m m' HR H2 cs cs' T L r E) as (r' & -> & G). exists r'. split; [reflexivity|]. now apply tabs_shuffled.
  - destruct (normalsN_ret p m m' HR H2 cs cs' T L r E) as (r' & -> & G). exists r'. split; [reflexivity|]. exact (tab_shuffled _ _ _ G).
Qed.
End Geometry.
Print Assumptions C107_centers.
Print Assumptions C107_normals2.
Print Assumptions C107_space.
Print Assumptions C107_measures2.
Print Assumptions C107_distance.
Print Assumptions C107_any.

(** ** Exchanging the first two vertices, edges and cells of a planar mesh *)
Definition swap01 (i : N) : N := if i =? 0 then 1 else if i =? 1 then 0 else i.
Definition swapped {A} (l : list A) : list A := match l with a :: b :: r => b :: a :: r | _ => l end.
Definition swap_mesh {V} (m : Mesh V) : Mesh V :=
  mkMesh (m_dim m) (swapped (m_verts m)) (m_mid m) (swapped (map (rename_face swap01 swap01 swap01) (m_faces m))) (swapped (map swap01 (m_cells m)))
    (map (fun b => (fst b, swap01 (snd b))) (m_bcells m)).
Lemma swap01_numbering n : (2 <= n)%nat -> numbering n swap01.
Proof.
  intros H. constructor; unfold swap01.
  - intros i Hi. destruct (N.eqb_spec i 0); [lia|]. destruct (N.eqb_spec i 1); lia.
  - intros i j. destruct (N.eqb_spec i 0), (N.eqb_spec i 1), (N.eqb_spec j 0), (N.eqb_spec j 1); lia.
  - intros i Hi. destruct (N.eqb_spec i 0); [lia|]. destruct (N.eqb_spec i 1); lia.
Qed.
Lemma swapped_shuffled {A} (l : list A) : (2 <= length l)%nat -> shuffled swap01 l (swapped l).
Proof.
  intros H. destruct l as [|a [|b r]]; cbn [length] in H; try lia. split; [reflexivity|]. intros i _. unfold swap01, swapped.
  destruct (N.eqb_spec i 0) as [->|E]; [reflexivity|]. destruct (N.eqb_spec i 1) as [->|E1]; [reflexivity|].
  replace (N.to_nat i) with (S (S (N.to_nat (i - 2)))) by lia. reflexivity.
Qed.
Lemma swap_renumbered {V} (m : Mesh V) : m_dim m = 2%nat -> m_mid m = [] -> (forall k, (k <= 2)%nat -> (2 <= n_elems m k)%nat /\ N.of_nat (n_elems m k) <= 2 ^ 63) ->
  renumbered (fun _ => swap01) m (swap_mesh m).
Proof.
  intros Hd Hm Hn.
  assert (L0 : (2 <= length (m_verts m))%nat) by apply (Hn 0%nat ltac:(lia)).
  assert (L1 : (2 <= length (m_faces m))%nat). { destruct (Hn 1%nat ltac:(lia)) as [A _]. unfold n_elems in A. rewrite Hd in A. exact A. }
  assert (L2 : (2 <= length (m_cells m))%nat). { destruct (Hn 2%nat ltac:(lia)) as [A _]. unfold n_elems in A. rewrite Hd in A. exact A. }
  constructor; cbn [swap_mesh m_dim m_verts m_mid m_faces m_cells m_bcells].
  - reflexivity.
  - intros k Hk. rewrite Hd in Hk. destruct (Hn k Hk). split; [now apply swap01_numbering|assumption].
  - now apply swapped_shuffled.
  - reflexivity.
  - intros k A B. rewrite Hd in B. lia.
  - apply swapped_shuffled. now rewrite map_length.
  - apply swapped_shuffled. now rewrite map_length.
  - reflexivity.
Qed.
Example C107_instance : wf_mesh twoTriangles /\ renumbered (fun _ => swap01) twoTriangles (swap_mesh twoTriangles) /\
  connections twoTriangles 2 0 = Ok [[0; 1; 2]; [1; 2; 3]] /\ connections (swap_mesh twoTriangles) 2 0 = Ok [[0; 2; 3]; [0; 1; 2]].
Proof.
  refine (conj twoTriangles_wf (conj _ (conj _ _))).
  - apply swap_renumbered; [reflexivity|reflexivity|]. intros [|[|[|k]]] Hk; [| | |lia]; (split; [cbn; lia|apply N.leb_le; reflexivity]).
  - vm_compute. reflexivity.
  - vm_compute. reflexivity.
Qed.
Example C107_geometry : renumbered (fun _ => swap01) trianglesR (swap_mesh trianglesR) /\ wf_mesh trianglesR /\ m_dim trianglesR = 2%nat.
Proof.
  refine (conj _ (conj (geo_wf _ (proj1 trianglesR_geo)) eq_refl)).
  apply swap_renumbered; [reflexivity|reflexivity|]. intros [|[|[|k]]] Hk; [| | |lia]; (split; [cbn; lia|apply N.leb_le; reflexivity]).
Qed.

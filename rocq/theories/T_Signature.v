(** C32 and C33: the mesh signature and the writers' caches. *)
From Coq Require Import String.
From Verif Require Import P_Base M_Conn M_Mesh M_Apply M_Connections M_Text M_FPMA M_VTK S_VTK M_VTKWrite P_VTKWrite M_Signature P_Signature Ex_Mesh T_VTKWrite.
Local Open Scope list_scope.

(** ** C33: what the signature sees. *)
(** Three-dimensional meshes: two meshes have the same signature for every choice of hash functions exactly
    when they have the same vertices, edges and cells, equally many faces, and every edge index is used an
    odd number of times by the faces of both or of none. *)
Theorem C33_signature3 {V} (eqV : forall x y : V, {x = y} + {x <> y}) (m1 m2 : Mesh V) :
  m_dim m1 = 3 -> m_dim m2 = 3 ->
  ((forall hi hc he he2 hv, signature hi hc he he2 hv m1 = signature hi hc he he2 hv m2) <->
   (m_verts m1 = m_verts m2 /\ nth 0 (m_mid m1) [] = nth 0 (m_mid m2) [] /\ m_cells m1 = m_cells m2 /\
    length (m_faces m1) = length (m_faces m2) /\
    forall e, Nat.odd (count_occ N.eq_dec (List.concat (map f_subs (m_faces m1))) e) =
              Nat.odd (count_occ N.eq_dec (List.concat (map f_subs (m_faces m2))) e))).
Proof.
  intros D1 D2.
  assert (S : forall m : Mesh V, m_dim m = 3 -> forall hi hc he he2 hv, signature hi hc he he2 hv m =
     N.lxor (hc (m_cells m)) (N.lxor (N.lxor (N.of_nat (length (m_faces m))) (xor_all (map hi (List.concat (map f_subs (m_faces m))))))
       (N.lxor (he (nth 0 (m_mid m) [])) (hv (m_verts m))))).
  { intros m D hi hc he he2 hv. unfold signature. rewrite D. cbn [Nat.sub hashDims]. rewrite D. cbn [Nat.eqb].
    rewrite hashElems_xor. unfold elems. rewrite D. cbn [Nat.sub Nat.eqb]. rewrite map_length. reflexivity. }
  split.
  - intros H.
    assert (H' : forall hi hc he hv, _) by (intros hi hc he hv; pose proof (H hi hc he (fun _ => 0%N) hv) as K; rewrite !S in K by assumption; exact K).
    clear H S.
    assert (Z : forall m : Mesh V, xor_all (map (fun _ => 0%N) (List.concat (map f_subs (m_faces m)))) = 0%N).
    { intros m. generalize (List.concat (map f_subs (m_faces m))) as k. clear. intros k. induction k as [|a l IH]; [reflexivity|]. cbn [map xor_all fold_right]. fold (xor_all (map (fun _ : N => 0%N) l)). rewrite IH. reflexivity. }
    assert (L : length (m_faces m1) = length (m_faces m2)).
    { pose proof (H' (fun _ => 0%N) (fun _ => 0%N) (fun _ => 0%N) (fun _ => 0%N)) as K. rewrite !Z in K.
      cbn in K. rewrite !N.lxor_0_r in K. lia. }
    assert (Ind : forall (A : Type) (dec : forall x y : A, {x = y} + {x <> y}) (a b : A),
      (if dec a a then 1%N else 0%N) = (if dec b a then 1%N else 0%N) -> a = b).
    { intros A dec a b. destruct (dec a a); [|congruence]. destruct (dec b a); [congruence|discriminate]. }
    splits; auto.
    + pose proof (H' (fun _ => 0%N) (fun _ => 0%N) (fun _ => 0%N) (fun l => if list_eq_dec eqV l (m_verts m1) then 1%N else 0%N)) as K.
      rewrite !Z, L, !N.lxor_0_l, !N.lxor_0_r in K. apply (f_equal (N.lxor (N.of_nat (length (m_faces m2))))) in K.
      rewrite <- !N.lxor_assoc, !N.lxor_nilpotent, !N.lxor_0_l in K. apply Ind in K. exact K.
    + pose proof (H' (fun _ => 0%N) (fun _ => 0%N) (fun l => if list_eq_dec (list_eq_dec N.eq_dec) l (nth 0 (m_mid m1) []) then 1%N else 0%N) (fun _ => 0%N)) as K.
      rewrite !Z, L, !N.lxor_0_l, !N.lxor_0_r in K. apply (f_equal (N.lxor (N.of_nat (length (m_faces m2))))) in K.
      rewrite <- !N.lxor_assoc, !N.lxor_nilpotent, !N.lxor_0_l in K. apply Ind in K. exact K.
    + pose proof (H' (fun _ => 0%N) (fun l => if list_eq_dec N.eq_dec l (m_cells m1) then 1%N else 0%N) (fun _ => 0%N) (fun _ => 0%N)) as K.
      rewrite !Z, L, !N.lxor_0_r in K. apply (f_equal (fun x => N.lxor x (N.of_nat (length (m_faces m2))))) in K.
      rewrite !N.lxor_assoc, !N.lxor_nilpotent, !N.lxor_0_r in K. apply Ind in K. exact K.
    + intros e. pose proof (H' (fun x => if (x =? e)%N then 1%N else 0%N) (fun _ => 0%N) (fun _ => 0%N) (fun _ => 0%N)) as K.
      rewrite !xor_indicator, L, !N.lxor_0_l, !N.lxor_0_r in K. apply (f_equal (N.lxor (N.of_nat (length (m_faces m2))))) in K.
      rewrite <- !N.lxor_assoc, !N.lxor_nilpotent, !N.lxor_0_l in K. unfold odd_in in K.
      destruct (Nat.odd _), (Nat.odd _); try reflexivity; discriminate.
  - intros (Hv & He & Hc & Hf & Ho) hi hc he he2 hv. rewrite !S by assumption. rewrite Hv, He, Hc, Hf.
    rewrite (xor_parity hi _ _ Ho). reflexivity.
Qed.
Print Assumptions C33_signature3.

(** Planar meshes: the signature covers everything in the mesh except the boundary cells. *)
Theorem C33_signature2 {V} (eqV : forall x y : V, {x = y} + {x <> y}) (m1 m2 : Mesh V) :
  m_dim m1 = 2 -> m_dim m2 = 2 ->
  ((forall hi hc he he2 hv, signature hi hc he he2 hv m1 = signature hi hc he he2 hv m2) <->
   (m_verts m1 = m_verts m2 /\ m_faces m1 = m_faces m2 /\ m_cells m1 = m_cells m2)).
Proof.
  intros D1 D2.
  assert (S : forall m : Mesh V, m_dim m = 2 -> forall hi hc he he2 hv, signature hi hc he he2 hv m =
     N.lxor (hc (m_cells m)) (N.lxor (he2 (m_faces m)) (hv (m_verts m)))).
  { intros m D hi hc he he2 hv. unfold signature. rewrite D. cbn [Nat.sub hashDims]. rewrite D. reflexivity. }
  assert (Ind : forall (A : Type) (dec : forall x y : A, {x = y} + {x <> y}) (a b : A),
    (if dec a a then 1%N else 0%N) = (if dec b a then 1%N else 0%N) -> a = b).
  { intros A dec a b. destruct (dec a a); [|congruence]. destruct (dec b a); [congruence|discriminate]. }
  assert (eqF : forall x y : Face, {x = y} + {x <> y}).
  { assert (eqCC : forall x y : CellConn, {x = y} + {x <> y}) by (decide equality; apply N.eq_dec).
    assert (eqBC : forall x y : BConn, {x = y} + {x <> y}) by (decide equality; apply N.eq_dec).
    decide equality. apply (list_eq_dec N.eq_dec). }
  split.
  - intros H.
    assert (H' : forall hc he2 hv, _) by (intros hc he2 hv; pose proof (H (fun _ => 0%N) hc (fun _ => 0%N) he2 hv) as K; rewrite !S in K by assumption; exact K).
    splits.
    + pose proof (H' (fun _ => 0%N) (fun _ => 0%N) (fun l => if list_eq_dec eqV l (m_verts m1) then 1%N else 0%N)) as K.
      rewrite !N.lxor_0_l in K. apply Ind in K. exact K.
    + pose proof (H' (fun _ => 0%N) (fun l => if list_eq_dec eqF l (m_faces m1) then 1%N else 0%N) (fun _ => 0%N)) as K.
      rewrite !N.lxor_0_l, !N.lxor_0_r in K. apply Ind in K. exact K.
    + pose proof (H' (fun l => if list_eq_dec N.eq_dec l (m_cells m1) then 1%N else 0%N) (fun _ => 0%N) (fun _ => 0%N)) as K.
      rewrite !N.lxor_0_r in K. apply Ind in K. exact K.
  - intros (Hv & Hf & Hc) hi hc he he2 hv. rewrite !S by assumption. rewrite Hv, Hf, Hc. reflexivity.
Qed.
Print Assumptions C33_signature2.

(** In particular a three-dimensional mesh may change all its faces' cells and successors, and the edges of
    its faces may be reordered, without a change of the signature. *)
Theorem C33_blind_spots {V} hi hc he he2 hv (m1 m2 : Mesh V) :
  m_dim m1 = 3 -> m_dim m2 = 3 -> m_verts m1 = m_verts m2 -> m_mid m1 = m_mid m2 -> m_cells m1 = m_cells m2 ->
  Forall2 (fun f1 f2 => Permutation (f_subs f1) (f_subs f2)) (m_faces m1) (m_faces m2) ->
  signature hi hc he he2 hv m1 = signature hi hc he he2 hv m2.
Proof.
  intros D1 D2 Hv He Hc HF.
  unfold signature. rewrite D1, D2, Hc. f_equal. cbn [Nat.sub hashDims]. rewrite D1, D2. cbn [Nat.eqb]. rewrite Hv, He. f_equal.
  rewrite !hashElems_xor. unfold elems. rewrite D1, D2. cbn [Nat.sub Nat.eqb]. rewrite !map_length.
  rewrite (Forall2_length' _ _ _ HF). f_equal. apply xor_parity. intros e. unfold odd_in. f_equal.
  clear -HF. induction HF as [|f1 f2 l1 l2 P _ IH]; [reflexivity|]. cbn [map List.concat]. rewrite !count_occ_app, IH. f_equal.
  clear -P. induction P; cbn [count_occ]; try congruence; [destruct (N.eq_dec x e); congruence|].
  destruct (N.eq_dec x e), (N.eq_dec y e); reflexivity.
Qed.
Print Assumptions C33_blind_spots.

(** ** C32 *)
(** For every history of writes in which indexing did not throw, on a writer object whose initial hash is
    not by accident the first mesh's: the text is made from the index of this or of an earlier mesh with the
    same signature. So it is the right text when meshes of equal signature have equal indices. *)
Section C32.
Context {M I T : Type}.
Variables (key : M -> N) (index : M -> outcome I) (partial : M -> I -> I) (emit : M -> I -> outcome T).
Lemma cache_text h0 i0 hist x :
  h0 <> key (hd x hist) -> (forall y, In y (hist ++ [x]) -> exists i, index y = Ok i) ->
  exists y i, In y (hist ++ [x]) /\ key y = key x /\ index y = Ok i /\
    fst (cwrite key index partial emit (crun key index partial emit (mkW h0 i0) hist) x) = emit x i.
Proof.
  intros H0 HI.
  assert (P : cached key index hist (crun key index partial emit (mkW h0 i0) hist) \/
              w_last (crun key index partial emit (mkW h0 i0) hist) <> key x).
  { destruct hist as [|x0 hist]; [right; exact H0|]. left.
    apply (crun_cached key index partial emit h0 i0 hist x0 []).
    - right. splits; auto.
    - intros y Hy. apply HI. apply in_app_iff. left. exact Hy. }
  destruct (cwrite_cached key index partial emit hist _ x P HI) as ((y & Hy & K1 & K2) & K3 & K4).
  eexists y, _. splits; [exact Hy|congruence|exact K2|exact K4].
Qed.
Lemma cache_fresh h0 i0 hist x :
  h0 <> key (hd x hist) -> (forall y, In y (hist ++ [x]) -> exists i, index y = Ok i) ->
  (forall y, In y hist -> key y = key x -> index y = index x) ->
  fst (cwrite key index partial emit (crun key index partial emit (mkW h0 i0) hist) x) = (i <- index x ;; emit x i).
Proof.
  intros H0 HI HS. destruct (cache_text h0 i0 hist x H0 HI) as (y & i & Hy & K & Ey & ->).
  assert (E : index y = index x).
  { apply in_app_iff in Hy as [Hy|[<-|[]]]; [apply HS; assumption|reflexivity]. }
  rewrite <- E, Ey. reflexivity.
Qed.
End C32.

(** FPMA: the text is that of a fresh writer if the meshes written before with the same signature have the
    same faces, edges and cells. *)
Theorem C32_fpma {C} hi hc he he2 hv partial h0 i0 (hist : list (Mesh (C * C * C))) m :
  h0 <> signature hi hc he he2 hv (hd m hist) ->
  (forall m', In m' (hist ++ [m]) -> exists i, indexMeshFPMA m' = Ok i) ->
  (forall m', In m' hist -> signature hi hc he he2 hv m' = signature hi hc he he2 hv m ->
     m_dim m' = m_dim m /\ m_faces m' = m_faces m /\ m_mid m' = m_mid m /\ m_cells m' = m_cells m) ->
  fst (fpma_write hi hc he he2 hv partial
         (crun (signature hi hc he he2 hv) indexMeshFPMA partial (fun m i => emitFPMA m (fst i) (snd i)) (mkW h0 i0) hist) m)
  = writeFPMA m.
Proof.
  intros H0 HI HS. unfold fpma_write. rewrite cache_fresh; auto.
  intros y Hy K. destruct (HS y Hy K) as (E1 & E2 & E3 & E4). destruct y, m. cbn in *. subst. reflexivity.
Qed.
Print Assumptions C32_fpma.

(** Planar VTK: the same; different cell types are no problem. *)
Theorem C32_vtk2 {C} hi hc he he2 hv (zero : C) h0 i0 (hist : list (Mesh (C * C) * list etype)) m types :
  let sig := signature hi hc he he2 hv in
  h0 <> sig (hd m (map fst hist)) ->
  (forall m', In m' (map fst hist ++ [m]) -> exists i, indexMesh2 m' = Ok i) ->
  (forall m', In m' (map fst hist) -> sig m' = sig m -> m_faces m' = m_faces m /\ m_cells m' = m_cells m) ->
  fst (vtk2_write hi hc he he2 hv zero
         (crun (sig2 hi hc he he2 hv) (fun x => indexMesh2 (fst x))
            (fun x old => (mapM_prefix (indexCell (fst x)) (seqN (length (m_cells (fst x)))), snd old))
            (fun x i => emitVTK2 zero (fst x) i (snd x)) (mkW h0 i0) hist) (m, types))
  = writeVTK2 zero m types.
Proof.
  intros sig H0 HI HS. unfold vtk2_write. rewrite cache_fresh.
  - reflexivity.
  - unfold sig2, sig in *. destruct hist; exact H0.
  - intros y Hy. apply HI. apply in_app_iff in Hy as [Hy|[<-|[]]]; apply in_app_iff; [left; apply in_map; assumption|right; left; reflexivity].
  - intros y Hy K. destruct (HS (fst y) (in_map _ _ _ Hy) K) as [E1 E2]. cbn [fst]. unfold indexMesh2, indexCell. rewrite E1, E2. reflexivity.
Qed.
Print Assumptions C32_vtk2.

(** VTK in three dimensions: the cell types are ignored when the mesh was the last one written. Whatever the
    first types were, writing the mesh again with other types repeats the first text. *)
Theorem C32_vtk3_types_ignored {C} hi hc he he2 hv geo key partial st (m : Mesh (C * C * C)) types types' text st' :
  vtk3_write hi hc he he2 hv geo key partial st (m, types) = (Ok text, st') ->
  vtk3_write hi hc he he2 hv geo key partial st' (m, types') = (Ok text, st').
Proof.
  unfold vtk3_write, cwrite, sig3. cbn [fst snd]. destruct (N.eqb_spec (w_last st) (signature hi hc he he2 hv m)) as [E|E].
  - intros H. injection H as H <-. rewrite E, N.eqb_refl, H. reflexivity.
  - destruct (indexMesh3 _ _ _ _ _ _) as [i| | |]; try discriminate. intros H. injection H as H <-. cbn [w_last w_idx].
    rewrite N.eqb_refl, H. reflexivity.
Qed.
Print Assumptions C32_vtk3_types_ignored.
(** With the types it was first given, the text is right, whatever was written before. *)
Theorem C32_vtk3 {C} hi hc he he2 hv geo key partial h0 i0 (hist : list (Mesh (C * C * C) * list etype)) m types :
  let sig := signature hi hc he he2 hv in
  let ix := fun x : Mesh (C * C * C) * list etype => indexMesh3 (fst (fst (geo (fst x)))) (snd (fst (geo (fst x)))) (snd (geo (fst x))) key (fst x) (snd x) in
  h0 <> sig (fst (hd (m, types) hist)) ->
  (forall y, In y (hist ++ [(m, types)]) -> exists i, ix y = Ok i) ->
  (forall y, In y hist -> sig (fst y) = sig m -> y = (m, types)) ->
  fst (vtk3_write hi hc he he2 hv geo key partial
         (crun (sig3 hi hc he he2 hv) ix partial (fun x i => emitVTK3 (fst x) i) (mkW h0 i0) hist) (m, types))
  = writeVTK3 (fst (fst (geo m))) (snd (fst (geo m))) (snd (geo m)) key m types.
Proof.
  intros sig ix H0 HI HS. unfold vtk3_write. fold ix. rewrite cache_fresh.
  - reflexivity.
  - exact H0.
  - exact HI.
  - intros y Hy K. rewrite (HS y Hy K). reflexivity.
Qed.
Print Assumptions C32_vtk3.

(** ** Refutations and instances *)
(** The claim of C32 as stated fails for every choice of hash functions: faces 4 and 5 of the two prisms
    exchanged give another mesh, both write different files from a fresh writer, but the second write on one
    writer object repeats the faces and cells of the first. *)
Local Open Scope N_scope.
Definition twoPrisms' : Mesh (Z * Z * Z) :=
  mkMesh 3 (m_verts twoPrisms) (m_mid twoPrisms)
    [mkF [0;1;13] [(2,0)]; mkF [13;2;3] [(4,1)]; mkF [0;5;8;4] [(3,0)];
     mkF [1;4;11;7] [(8,0)]; mkF [2;6;9;5] [(5,1)]; mkF [3;6;10;7] [(8,1)];
     mkF [8;12;11] [(0,0)]; mkF [9;10;12] [(1,1)]; mkF [12;7;13;5] [(6,0);(7,1)]]
    [0; 1] [].
Example C32_stale_index : forall hi hc he he2 hv partial h0 i0,
  h0 <> signature hi hc he he2 hv twoPrisms ->
  let w1 := fpma_write hi hc he he2 hv partial (mkW h0 i0) twoPrisms in
  let w2 := fpma_write hi hc he he2 hv partial (snd w1) twoPrisms' in
  fst w1 = writeFPMA twoPrisms /\ fst w2 = writeFPMA twoPrisms /\ writeFPMA twoPrisms' <> writeFPMA twoPrisms.
Proof.
  intros hi hc he he2 hv partial h0 i0 H0.
  assert (ES : signature hi hc he he2 hv twoPrisms' = signature hi hc he he2 hv twoPrisms).
  { unfold signature. cbn [m_dim twoPrisms twoPrisms' Nat.sub hashDims Nat.eqb]. do 2 f_equal.
    rewrite !hashElems_xor. unfold elems. cbn [m_dim twoPrisms twoPrisms' Nat.sub Nat.eqb]. f_equal. apply xor_parity.
    intros e. unfold odd_in. f_equal.
    replace (List.concat (map f_subs (m_faces twoPrisms'))) with ([0;1;13;13;2;3;0;5;8;4;1;4;11;7] ++ [2;6;9;5] ++ [3;6;10;7] ++ [8;12;11;9;10;12;12;7;13;5]) by reflexivity.
    replace (List.concat (map f_subs (m_faces twoPrisms))) with ([0;1;13;13;2;3;0;5;8;4;1;4;11;7] ++ [3;6;10;7] ++ [2;6;9;5] ++ [8;12;11;9;10;12;12;7;13;5]) by reflexivity.
    rewrite !count_occ_app. lia. }
  cbv zeta. unfold fpma_write, cwrite. cbn [w_last]. destruct (N.eqb_spec h0 (signature hi hc he he2 hv twoPrisms)) as [E|_]; [congruence|].
  destruct (indexMeshFPMA twoPrisms) as [i| | |] eqn:Ei; try (vm_compute in Ei; discriminate).
  cbn [fst snd w_last w_idx]. rewrite ES, N.eqb_refl. cbn [fst].
  split; [unfold writeFPMA; rewrite Ei; reflexivity|]. split.
  - unfold writeFPMA. rewrite Ei. cbn [bind]. unfold emitFPMA. reflexivity.
  - vm_compute. discriminate.
Qed.

(** A throwing write spoils the index of the mesh written before: the planar writer writes mesh A, then fails
    on a mesh B after its first cell (the second cell's boundary leads to an edge of another cell), then writes
    A again: the hash still is A's, the table is B's. The file announces 2 cells and lists one, of B. *)
Definition broken : Mesh (Z * Z) :=
  mkMesh 2 [(5,5);(6,5);(5,6);(6,6)]%Z []
    [mkF [0;1] []; mkF [1;2] []; mkF [2;3] [(3,0)]; mkF [3;1] [(4,0)]; mkF [1;2] [(2,0)]]
    [2; 0] [].
Example C32_failed_write_spoils_index :
  let h (l : list (Z * Z)) := match l with ((x, _) :: _)%Z => Z.to_N x | [] => 0 end in
  let wr := vtk2_write (fun _ => 0) (fun _ => 0) (fun _ => 0) (fun _ => 0) h 0%Z in
  let types := [TRIANGLE; TRIANGLE] in
  let s1 := wr (mkW 99 ([], 0)) (twoTriangles, types) in
  let s2 := wr (snd s1) (broken, types) in
  let s3 := wr (snd s2) (twoTriangles, types) in
  fst s1 = writeVTK2 0%Z twoTriangles types /\ fst s2 = Throw /\
  exists text, fst s3 = Ok text /\ fst s3 <> fst s1 /\
    text = points_section [(0,0,0);(1,0,0);(0,1,0);(1,1,0)]%Z ++ [Vw "CELLS"; Vn 2; Vn 8; Vnl; Vn 3; Vn 2; Vn 3; Vn 1; Vnl; Vnl] ++ types_section [5; 5].
Proof.
  cbv zeta. split; [vm_compute; reflexivity|]. split; [vm_compute; reflexivity|].
  eexists. split; [vm_compute; reflexivity|]. split; [vm_compute; discriminate|]. vm_compute. reflexivity.
Qed.

(** A writer object whose uninitialised lastHash happens to be the signature writes without any index. *)
Example C32_uninitialised_hash : forall partial hv,
  fst (fpma_write (fun _ => 0) (fun _ => 0) (fun _ => 0) (fun _ => 0) hv partial
         (mkW (signature (fun _ => 0) (fun _ => 0) (fun _ => 0) (fun _ => 0) hv twoPrisms) ([], [])) twoPrisms) = Throw.
Proof. intros. unfold fpma_write, cwrite. cbn [w_last w_idx]. rewrite N.eqb_refl. vm_compute. reflexivity. Qed.

(** The hypotheses of C32_fpma are met by writing the cube, then the prisms, with any hash of the vertex
    count; those of C32_vtk3_types_ignored by the prisms as polyhedra, then as wedges. *)
Example C32_instance : forall partial,
  fst (fpma_write (fun _ => 0) (fun l => N.of_nat (length l)) (fun _ => 0) (fun _ => 0) (fun _ => 0) partial
         (crun (signature (fun _ => 0) (fun l => N.of_nat (length l)) (fun _ => 0) (fun _ => 0) (fun _ => 0)) indexMeshFPMA partial
            (fun m i => emitFPMA m (fst i) (snd i)) (mkW 77 ([], [])) [cubeMesh]) twoPrisms)
  = writeFPMA twoPrisms.
Proof.
  intros partial. apply C32_fpma.
  - vm_compute. discriminate.
  - intros m' [<-|[<-|[]]]; eexists; vm_compute; reflexivity.
  - intros m' [<-|[]]. vm_compute. discriminate.
Qed.
Example C32_types_instance :
  let geo (m : Mesh (Z * Z * Z)) := (prismOri, (fun c => (100 + Z.of_N c, 0, 0)%Z), (fun f => (200 + Z.of_N f, 0, 0)%Z)) in
  exists text st, vtk3_write (fun _ => 0) (fun _ => 0) (fun _ => 0) (fun _ => 0) (fun _ => 0) geo zkey (fun _ i => i)
      (mkW 0 (mkTess [] [] [] [])) (twoPrisms, [POLYHEDRON; POLYHEDRON]) = (Ok text, st) /\
    exists other, writeVTK3 prismOri (fun c => (100 + Z.of_N c, 0, 0)%Z) (fun f => (200 + Z.of_N f, 0, 0)%Z) zkey twoPrisms [WEDGE; WEDGE] = Ok other /\
      other <> text.
Proof.
  cbv zeta. eexists _, _. split; [vm_compute; reflexivity|]. eexists. split; [vm_compute; reflexivity|]. discriminate.
Qed.

(** Theorems about the mesh storage (MeshElements/MeshElements.h): C06, C07. *)
From Verif Require Import P_Base M_Index M_Conn M_Mesh S_Boundary P_Boundary Ex_Mesh.

(** C06. After setupBoundaryCells: every side of every face has a cell; sides that had one keep it;
    one boundary cell is appended per missing side (in face order, left first), it refers back to its
    face and that side of the face holds the boundary code of the boundary cell's position; nothing
    else changes; a second call changes nothing. [missing_sides] lists each missing side once.
    The hypothesis says that the numbers of boundary cells fit into the 63 bits of a plain index. *)
Theorem C06_setupBoundaryCells : forall V (m : Mesh V),
  (N.of_nat (length (m_bcells m) + 2 * length (m_faces m)) < 2 ^ 63 - 1)%N ->
  let m' := setupBoundaryCells m in
  let nb := length (m_bcells m) in
  NoDup (missing_sides m) /\
  (forall i s, In (i, s) (missing_sides m) <-> side m i s = Some INVALID) /\
  (forall i s c, side m' i s = Some c -> c <> INVALID) /\
  (forall i s c, side m i s = Some c -> c <> INVALID -> side m' i s = Some c) /\
  (forall n i s, nth_error (missing_sides m) n = Some (i, s) ->
     side m' i s = Some (bcode (nb + n)) /\
     nth_error (m_bcells m') (nb + n) = Some (bcode (nb + n), N.of_nat i)) /\
  (firstn nb (m_bcells m') = m_bcells m /\
   length (m_bcells m') = nb + length (missing_sides m)) /\
  (length (m_faces m') = length (m_faces m) /\
   forall i f f', nth_error (m_faces m) i = Some f -> nth_error (m_faces m') i = Some f' ->
     f_subs f' = f_subs f /\ nextL (f_conn f') = nextL (f_conn f) /\ nextR (f_conn f') = nextR (f_conn f)) /\
  (m_dim m' = m_dim m /\ m_verts m' = m_verts m /\ m_mid m' = m_mid m /\ m_cells m' = m_cells m) /\
  setupBoundaryCells m' = m'.
Proof.
  intros V m Hb m' nb.
  assert (Em : m' = mkMesh (m_dim m) (m_verts m) (m_mid m) (faces_after nb 0 (m_faces m)) (m_cells m)
                 (m_bcells m ++ records nb (missing_sides m))).
  { unfold m', setupBoundaryCells. change 0%N with (N.of_nat 0). rewrite (setupLoop_spec (m_faces m) (m_bcells m) 0). reflexivity. }
  pose proof (missing_length (m_faces m) 0) as HL.
  assert (Hvalid : forall i s c, side m' i s = Some c -> c <> INVALID).
  { intros i s c. rewrite Em. unfold side. simpl.
    destruct (nth_error (m_faces m) i) as [f|] eqn:Ef.
    - destruct (faces_after_nth nb 0 _ _ _ Ef) as (k & H1 & H2 & H3 & _). rewrite H1. simpl.
      intros H; inv H. apply face_after_valid. lia.
    - apply nth_error_None in Ef.
      rewrite (proj2 (nth_error_None _ _)) by (rewrite faces_after_length; assumption). discriminate. }
  assert (Hin : forall i s, In (i, s) (missing_sides m) <-> side m i s = Some INVALID).
  { intros i s. unfold missing_sides. rewrite missing_from_in. rewrite Nat.sub_0_r. unfold side. split.
    - intros (_ & f & H & E). rewrite H. simpl. congruence.
    - intros H. split; [lia|]. destruct (nth_error (m_faces m) i) as [f|]; [|discriminate].
      simpl in H. inv H. exists f. auto. }
  repeat match goal with |- _ /\ _ => split end; try (rewrite Em; reflexivity).
  - apply missing_from_NoDup.
  - exact Hin.
  - exact Hvalid.
  - intros i s c Hs Hc. rewrite Em. unfold side in *. simpl.
    destruct (nth_error (m_faces m) i) as [f|] eqn:Ef; [|discriminate]. simpl in Hs. inv Hs.
    destruct (faces_after_nth nb 0 _ _ _ Ef) as (k & H1 & _). rewrite H1. simpl. f_equal.
    apply face_after_keep. assumption.
  - intros n i s Hn. split.
    + destruct (missing_side_code (m_faces m) nb 0 n i s Hn) as (_ & f' & H1 & H2).
      rewrite Nat.sub_0_r in H1. rewrite Em. unfold side. simpl. rewrite H1. simpl. congruence.
    + rewrite Em. simpl. rewrite nth_error_app2 by (unfold nb; lia).
      replace (nb + n - length (m_bcells m)) with n by (unfold nb; lia).
      eapply records_nth; eassumption.
  - rewrite Em. simpl. unfold nb. rewrite firstn_app, firstn_all, Nat.sub_diag. simpl. apply app_nil_r.
  - rewrite Em. simpl. rewrite app_length, records_length. reflexivity.
  - rewrite Em. simpl. apply faces_after_length.
  - intros i f f' Hf Hf'. rewrite Em in Hf'. simpl in Hf'.
    destruct (faces_after_nth nb 0 _ _ _ Hf) as (k & H1 & _). rewrite H1 in Hf'. inv Hf'.
    unfold face_after; simpl; auto.
  - assert (Hnone : missing_sides m' = []).
    { destruct (missing_sides m') as [|[i s] l] eqn:E; [reflexivity|]. exfalso.
      assert (H : In (i, s) (missing_sides m')) by (rewrite E; left; reflexivity).
      unfold missing_sides in H. rewrite missing_from_in, Nat.sub_0_r in H.
      destruct H as (_ & f & H1 & H2). apply (Hvalid i s INVALID); [|reflexivity].
      unfold side. rewrite H1. simpl. congruence. }
    unfold setupBoundaryCells at 1. unfold missing_sides in Hnone. change 0%N with (N.of_nat 0).
    rewrite (setupLoop_spec (m_faces m') (m_bcells m') 0), Hnone. simpl.
    rewrite app_nil_r, faces_after_none by assumption. destruct m'; reflexivity.
Qed.
Print Assumptions C06_setupBoundaryCells.

(** The twoPrisms mesh has 8 outer faces: 8 boundary cells. *)
Example C06_instance :
  length (m_bcells (setupBoundaryCells twoPrisms)) = 8 /\
  side (setupBoundaryCells twoPrisms) 1 SLeft = Some 1%N /\
  side (setupBoundaryCells twoPrisms) 1 SRight = Some (bcode 1) /\
  side (setupBoundaryCells twoPrisms) 8 SRight = Some 1%N.
Proof. vm_compute. auto. Qed.

(** C07. clear() empties the element vectors of every dimension ... *)
Theorem C07_clear_empties : forall V (m : Mesh V) k, 2 <= m_dim m -> k <= m_dim m ->
  n_elems (clear m) k = 0 /\ m_dim (clear m) = m_dim m.
Proof.
  intros V m k Hd Hk. split; [|reflexivity]. unfold n_elems, clear. simpl.
  destruct (k =? 0); [reflexivity|]. destruct (k =? m_dim m); [reflexivity|].
  destruct (k =? m_dim m - 1); [reflexivity|].
  generalize (k - 1). induction (m_mid m) as [|a l IH]; intros [|n]; simpl; auto.
Qed.
Print Assumptions C07_clear_empties.

(** ... but not the boundary cells: clear() gives an empty mesh exactly when there were none. *)
Theorem C07_clear_keeps_boundary_cells : forall V (m : Mesh V),
  length (m_mid m) = m_dim m - 2 ->
  m_bcells (clear m) = m_bcells m /\
  (clear m = emptyMesh (m_dim m) <-> m_bcells m = []).
Proof.
  intros V m Hm. split; [reflexivity|]. unfold clear, emptyMesh.
  assert (E : map (fun _ : list (list N) => @nil (list N)) (m_mid m) = repeat [] (m_dim m - 2)).
  { rewrite <- Hm. clear. induction (m_mid m) as [|a l IH]; simpl; [reflexivity|]. rewrite IH; reflexivity. }
  rewrite E. split; [intros H; injection H; auto|intros ->; reflexivity].
Qed.
Print Assumptions C07_clear_keeps_boundary_cells.

(** A history in which the stale boundary cells are observable: set up the boundary cells, clear,
    rebuild the same mesh, set them up again: twice as many boundary cells as on a fresh mesh. *)
Example C07_stale_boundary_cells :
  let rebuild (m : Mesh (Z * Z * Z)) :=
    mkMesh 3 (m_verts twoPrisms) (m_mid twoPrisms) (m_faces twoPrisms) (m_cells twoPrisms) (m_bcells m) in
  length (m_bcells (setupBoundaryCells (rebuild (clear (setupBoundaryCells twoPrisms))))) = 16 /\
  length (m_bcells (setupBoundaryCells (rebuild (emptyMesh 3)))) = 8.
Proof. vm_compute. auto. Qed.

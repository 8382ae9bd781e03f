(** Concrete meshes used to show that the hypotheses of the theorems are met: the meshes of
    /repo/tests/UnstructuredMesh/MeshSetup.h and a small 2D mesh. *)
From Verif Require Import P_Base M_Index M_Conn M_Mesh M_Apply S_Mesh P_Apply.

(** * A checker for [wf_mesh] *)
Fixpoint nodupb (l : list N) : bool :=
  match l with [] => true | a :: r => negb (existsb (N.eqb a) r) && nodupb r end.

Lemma nodupb_sound l : nodupb l = true -> NoDup l.
Proof.
  induction l as [|a l IH]; simpl; [constructor|].
  intros H. apply andb_true_iff in H as [H1 H2]. constructor; [|auto].
  intros Hi. apply negb_true_iff in H1.
  assert (existsb (N.eqb a) l = true) by (apply existsb_exists; exists a; split; [assumption|apply N.eqb_refl]).
  congruence.
Qed.

Section Check.
Context {V : Type}.
Implicit Type m : Mesh V.

Definition subs_okb m (k : nat) (i : N) : bool :=
  match subs m k i with
  | Ok js => nodupb js && forallb (fun j => (j <? N.of_nat (n_elems m (k - 1)))%N) js &&
             (if k =? 1 then length js =? 2 else true)
  | _ => true
  end.

Definition wf_meshb m : bool :=
  (2 <=? m_dim m) && (length (m_mid m) =? m_dim m - 2) &&
  forallb (fun k => forallb (subs_okb m k) (seqN (n_elems m k))) (seq 1 (m_dim m - 1)) &&
  forallb (fun c => match ring_walk m c (fun f => Ok f) with Ok _ => true | _ => false end)
          (seqN (length (m_cells m))).

Lemma wf_meshb_sound m : wf_meshb m = true -> wf_mesh m.
Proof.
  unfold wf_meshb. rewrite !andb_true_iff. intros [[[H1 H2] H3] H4].
  apply Nat.leb_le in H1. apply Nat.eqb_eq in H2.
  rewrite forallb_forall in H3, H4.
  constructor; try assumption.
  - intros k i js Hk Hs. specialize (H3 k). rewrite in_seq in H3.
    specialize (H3 ltac:(lia)). rewrite forallb_forall in H3.
    specialize (H3 i). rewrite in_seqN in H3. specialize (H3 (subs_lt m k i js Hk Hs)).
    unfold subs_okb in H3. rewrite Hs in H3. rewrite !andb_true_iff in H3.
    destruct H3 as [[Ha Hb] Hc]. split; [apply nodupb_sound; assumption|]. split.
    + rewrite forallb_forall in Hb. intros j Hj. apply N.ltb_lt. apply Hb; assumption.
    + intros ->. simpl in Hc. apply Nat.eqb_eq; assumption.
  - intros c Hc. specialize (H4 c). rewrite in_seqN in H4. specialize (H4 Hc).
    destruct (ring_walk m c (fun f => Ok f)) as [fs| | |] eqn:E; try discriminate.
    exists fs. apply ring_iff. assumption.
Qed.
End Check.

(** * The meshes *)
Local Open Scope N_scope.

(** A face with the given edges and [setNextBElem(next, cell)] calls. *)
Definition mkF (es : list N) (calls : list (N * N)) : Face :=
  mkFace es (fold_left (fun b c => fst (setNextBElem b (fst c) (snd c))) calls newBC).

Definition cubeEdges : list (list N) :=
  [[0;1];[0;2];[1;3];[2;3];[0;4];[1;5];[3;7];[2;6];[4;5];[5;7];[6;7];[4;6]].

(** tests/UnstructuredMesh/MeshSetup.h:6-73 cube *)
Definition cubeMesh : Mesh (Z * Z * Z) :=
  mkMesh 3 [(0,0,0);(1,0,0);(0,1,0);(1,1,0);(0,0,1);(1,0,1);(0,1,1);(1,1,1)]%Z
    [cubeEdges]
    [mkF [0;1;2;3] [(1,0)]; mkF [0;5;8;4] [(2,0)]; mkF [1;4;11;7] [(3,0)];
     mkF [3;6;10;7] [(4,0)]; mkF [2;6;9;5] [(5,0)]; mkF [8;9;10;11] [(0,0)]]
    [3] [].

(** tests/UnstructuredMesh/MeshSetup.h:75-170 twoPrisms *)
Definition twoPrisms : Mesh (Z * Z * Z) :=
  mkMesh 3 [(0,0,0);(1,0,0);(0,1,0);(1,1,0);(0,0,1);(1,0,1);(0,1,1);(1,1,1)]%Z
    [cubeEdges ++ [[6;5];[2;1]]]
    [mkF [0;1;13] [(2,0)]; mkF [13;2;3] [(5,1)]; mkF [0;5;8;4] [(3,0)];
     mkF [1;4;11;7] [(8,0)]; mkF [3;6;10;7] [(8,1)]; mkF [2;6;9;5] [(4,1)];
     mkF [8;12;11] [(0,0)]; mkF [9;10;12] [(1,1)]; mkF [12;7;13;5] [(6,0);(7,1)]]
    [0; 1] [].

(** Two triangles sharing an edge: 2D mesh, the faces are the edges. *)
Definition twoTriangles : Mesh (Z * Z) :=
  mkMesh 2 [(0,0);(1,0);(0,1);(1,1)]%Z []
    [mkF [0;1] [(1,0)]; mkF [1;2] [(2,0);(3,1)]; mkF [2;0] [(0,0)];
     mkF [2;3] [(4,1)]; mkF [3;1] [(1,1)]]
    [0; 1] [].

Lemma cubeMesh_wf : wf_mesh cubeMesh.
Proof. apply wf_meshb_sound. vm_compute. reflexivity. Qed.
Lemma twoPrisms_wf : wf_mesh twoPrisms.
Proof. apply wf_meshb_sound. vm_compute. reflexivity. Qed.
Lemma twoTriangles_wf : wf_mesh twoTriangles.
Proof. apply wf_meshb_sound. vm_compute. reflexivity. Qed.

(** The test meshes with real coordinates. *)
From Coq Require Import Reals Lra.
From Verif Require Import P_Base M_Conn M_Index M_Mesh M_Apply S_Mesh P_Apply Ex_Mesh S_Geom.
Local Open Scope R_scope.

Definition pt3 (p : Z * Z * Z) : point := [IZR (fst (fst p)); IZR (snd (fst p)); IZR (snd p)].
Definition pt2 (p : Z * Z) : point := [IZR (fst p); IZR (snd p)].
Definition with_points {V} (f : V -> point) (m : Mesh V) : Mesh point :=
  mkMesh (m_dim m) (map f (m_verts m)) (m_mid m) (m_faces m) (m_cells m) (m_bcells m).
Definition cubeR : Mesh point := with_points pt3 cubeMesh.
Definition prismsR : Mesh point := with_points pt3 twoPrisms.
Definition trianglesR : Mesh point := with_points pt2 twoTriangles.

Lemma with_points_wf {V} (f : V -> point) m : wf_meshb m = true -> wf_meshb (with_points f m) = true.
Proof.
  unfold wf_meshb. rewrite !andb_true_iff. intros [[[H1 H2] H3] H4]. repeat split; try assumption.
  rewrite forallb_forall in *. intros k Hk. specialize (H3 k Hk). rewrite forallb_forall in *.
  assert (E : forall j, n_elems (with_points f m) j = n_elems m j) by (intros; unfold n_elems, with_points; simpl; rewrite map_length; reflexivity).
  rewrite E. intros i Hi. specialize (H3 i Hi). unfold subs_okb in *. rewrite E. exact H3.
Qed.
Lemma no_empty_faces (m : Mesh point) : m_dim m = 3%nat -> forallb (fun f => negb (length (f_subs f) =? 0)%nat) (m_faces m) = true -> no_empty m.
Proof.
  intros D H k i js Hk Hs. assert (k = 2%nat) by lia. subst k. unfold subs in Hs. rewrite D in Hs. simpl in Hs.
  apply bind_ok in Hs as (f & Hf & E). injection E as <-. apply vat_ok, nth_error_In in Hf.
  rewrite forallb_forall in H. specialize (H f Hf). destruct (f_subs f); [discriminate|congruence].
Qed.
Lemma cubeR_geo : geo_mesh cubeR /\ no_empty cubeR.
Proof.
  split; [constructor|].
  - apply wf_meshb_sound. apply (with_points_wf pt3 cubeMesh). vm_compute. reflexivity.
  - simpl. intros p H. repeat destruct H as [<-|H]; try reflexivity. destruct H.
  - apply no_empty_faces; reflexivity.
Qed.
Lemma prismsR_geo : geo_mesh prismsR /\ no_empty prismsR.
Proof.
  split; [constructor|].
  - apply wf_meshb_sound. apply (with_points_wf pt3 twoPrisms). vm_compute. reflexivity.
  - simpl. intros p H. repeat destruct H as [<-|H]; try reflexivity. destruct H.
  - apply no_empty_faces; reflexivity.
Qed.
Lemma trianglesR_geo : geo_mesh trianglesR /\ no_empty trianglesR.
Proof.
  split; [constructor|].
  - apply wf_meshb_sound. apply (with_points_wf pt2 twoTriangles). vm_compute. reflexivity.
  - simpl. intros p H. repeat destruct H as [<-|H]; try reflexivity. destruct H.
  - intros k i js Hk. simpl in Hk. lia.
Qed.

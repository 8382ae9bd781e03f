(** A mesh of one cell in a space of four dimensions: the simplex with the origin and the unit vectors as vertices. *)
From Coq Require Import Reals Lra Psatz Permutation.
From Verif Require Import P_Base M_Conn M_Index M_Mesh M_Apply S_Mesh P_Apply Ex_Mesh S_Vec S_Geom Ex_Geom S_GeomN.
Local Open Scope R_scope.

Definition pt4 (i : nat) : point := map (fun j => if (S j =? i)%nat then 1 else 0) (seq 0 4).
Definition simplex4 : Mesh nat :=
  mkMesh 4 (seq 0 5)
    [[[0; 1]; [0; 2]; [0; 3]; [0; 4]; [1; 2]; [1; 3]; [1; 4]; [2; 3]; [2; 4]; [3; 4]];
     [[0; 1; 4]; [0; 2; 5]; [0; 3; 6]; [1; 2; 7]; [1; 3; 8]; [2; 3; 9]; [4; 5; 7]; [4; 6; 8]; [5; 6; 9]; [7; 8; 9]]]%N
    [mkF [0; 1; 3; 6] [(1, 0)];
     mkF [0; 2; 4; 7] [(2, 0)];
     mkF [1; 2; 5; 8] [(3, 0)];
     mkF [3; 4; 5; 9] [(4, 0)];
     mkF [6; 7; 8; 9] [(0, 0)]]%N
    [0]%N [].
Definition simplexR : Mesh point := with_points pt4 simplex4.
Lemma simplexR_geo : geo_mesh simplexR /\ no_empty simplexR.
Proof.
  split; [constructor|].
  - apply wf_meshb_sound. apply (with_points_wf pt4 simplex4). vm_compute. reflexivity.
  - simpl. intros p H. repeat destruct H as [<-|H]; try reflexivity. destruct H.
  - intros k i js Hk Hs ->. simpl in Hk. assert (D : k = 2%nat \/ k = 3%nat) by lia. destruct D as [-> | ->].
    + change (vat (nth 1 (m_mid simplexR) []) i = Ok []) in Hs. apply vat_ok, nth_error_In in Hs. simpl in Hs.
      repeat destruct Hs as [Hs|Hs]; try discriminate; destruct Hs.
    + change ((f <- vat (m_faces simplexR) i ;; Ok (f_subs f)) = Ok []) in Hs. apply bind_ok in Hs as (f & Hf & E).
      apply vat_ok, nth_error_In in Hf. simpl in Hf. injection E as E.
      repeat destruct Hf as [<-|Hf]; try discriminate; destruct Hf.
Qed.
Lemma sx01 : simplex simplexR 1 0 [pt4 0; pt4 1].
Proof. eapply sx_edge; [eexists _, _; splits; reflexivity|apply Permutation_refl]. Qed.
Lemma sx02 : simplex simplexR 1 1 [pt4 0; pt4 2].
Proof. eapply sx_edge; [eexists _, _; splits; reflexivity|apply Permutation_refl]. Qed.
Lemma sx03 : simplex simplexR 1 2 [pt4 0; pt4 3].
Proof. eapply sx_edge; [eexists _, _; splits; reflexivity|apply Permutation_refl]. Qed.
Lemma sx04 : simplex simplexR 1 3 [pt4 0; pt4 4].
Proof. eapply sx_edge; [eexists _, _; splits; reflexivity|apply Permutation_refl]. Qed.
Lemma sx12 : simplex simplexR 1 4 [pt4 1; pt4 2].
Proof. eapply sx_edge; [eexists _, _; splits; reflexivity|apply Permutation_refl]. Qed.
Lemma sx13 : simplex simplexR 1 5 [pt4 1; pt4 3].
Proof. eapply sx_edge; [eexists _, _; splits; reflexivity|apply Permutation_refl]. Qed.
Lemma sx14 : simplex simplexR 1 6 [pt4 1; pt4 4].
Proof. eapply sx_edge; [eexists _, _; splits; reflexivity|apply Permutation_refl]. Qed.
Lemma sx23 : simplex simplexR 1 7 [pt4 2; pt4 3].
Proof. eapply sx_edge; [eexists _, _; splits; reflexivity|apply Permutation_refl]. Qed.
Lemma sx24 : simplex simplexR 1 8 [pt4 2; pt4 4].
Proof. eapply sx_edge; [eexists _, _; splits; reflexivity|apply Permutation_refl]. Qed.
Lemma sx34 : simplex simplexR 1 9 [pt4 3; pt4 4].
Proof. eapply sx_edge; [eexists _, _; splits; reflexivity|apply Permutation_refl]. Qed.
Lemma sx012 : simplex simplexR 2 0 [pt4 0; pt4 1; pt4 2].
Proof.
  apply (sx_up simplexR 1 0 [0; 1; 4]%N [pt4 0; pt4 1; pt4 2] (rev [pt4 0; pt4 1; pt4 2])); [lia|reflexivity|symmetry; apply Permutation_rev|reflexivity|].
  cbn [rev app].
  constructor; [exists [pt4 0; pt4 1]; split; [symmetry; apply (Permutation_middle [pt4 0; pt4 1] [])|exact sx01]|].
  constructor; [exists [pt4 0; pt4 2]; split; [symmetry; apply (Permutation_middle [pt4 0] [pt4 2])|exact sx02]|].
  constructor; [exists [pt4 1; pt4 2]; split; [symmetry; apply (Permutation_middle [] [pt4 1; pt4 2])|exact sx12]|].
  constructor.
Qed.
Lemma sx013 : simplex simplexR 2 1 [pt4 0; pt4 1; pt4 3].
Proof.
  apply (sx_up simplexR 1 1 [0; 2; 5]%N [pt4 0; pt4 1; pt4 3] (rev [pt4 0; pt4 1; pt4 3])); [lia|reflexivity|symmetry; apply Permutation_rev|reflexivity|].
  cbn [rev app].
  constructor; [exists [pt4 0; pt4 1]; split; [symmetry; apply (Permutation_middle [pt4 0; pt4 1] [])|exact sx01]|].
  constructor; [exists [pt4 0; pt4 3]; split; [symmetry; apply (Permutation_middle [pt4 0] [pt4 3])|exact sx03]|].
  constructor; [exists [pt4 1; pt4 3]; split; [symmetry; apply (Permutation_middle [] [pt4 1; pt4 3])|exact sx13]|].
  constructor.
Qed.
Lemma sx014 : simplex simplexR 2 2 [pt4 0; pt4 1; pt4 4].
Proof.
  apply (sx_up simplexR 1 2 [0; 3; 6]%N [pt4 0; pt4 1; pt4 4] (rev [pt4 0; pt4 1; pt4 4])); [lia|reflexivity|symmetry; apply Permutation_rev|reflexivity|].
  cbn [rev app].
  constructor; [exists [pt4 0; pt4 1]; split; [symmetry; apply (Permutation_middle [pt4 0; pt4 1] [])|exact sx01]|].
  constructor; [exists [pt4 0; pt4 4]; split; [symmetry; apply (Permutation_middle [pt4 0] [pt4 4])|exact sx04]|].
  constructor; [exists [pt4 1; pt4 4]; split; [symmetry; apply (Permutation_middle [] [pt4 1; pt4 4])|exact sx14]|].
  constructor.
Qed.
Lemma sx023 : simplex simplexR 2 3 [pt4 0; pt4 2; pt4 3].
Proof.
  apply (sx_up simplexR 1 3 [1; 2; 7]%N [pt4 0; pt4 2; pt4 3] (rev [pt4 0; pt4 2; pt4 3])); [lia|reflexivity|symmetry; apply Permutation_rev|reflexivity|].
  cbn [rev app].
  constructor; [exists [pt4 0; pt4 2]; split; [symmetry; apply (Permutation_middle [pt4 0; pt4 2] [])|exact sx02]|].
  constructor; [exists [pt4 0; pt4 3]; split; [symmetry; apply (Permutation_middle [pt4 0] [pt4 3])|exact sx03]|].
  constructor; [exists [pt4 2; pt4 3]; split; [symmetry; apply (Permutation_middle [] [pt4 2; pt4 3])|exact sx23]|].
  constructor.
Qed.
Lemma sx024 : simplex simplexR 2 4 [pt4 0; pt4 2; pt4 4].
Proof.
  apply (sx_up simplexR 1 4 [1; 3; 8]%N [pt4 0; pt4 2; pt4 4] (rev [pt4 0; pt4 2; pt4 4])); [lia|reflexivity|symmetry; apply Permutation_rev|reflexivity|].
  cbn [rev app].
  constructor; [exists [pt4 0; pt4 2]; split; [symmetry; apply (Permutation_middle [pt4 0; pt4 2] [])|exact sx02]|].
  constructor; [exists [pt4 0; pt4 4]; split; [symmetry; apply (Permutation_middle [pt4 0] [pt4 4])|exact sx04]|].
  constructor; [exists [pt4 2; pt4 4]; split; [symmetry; apply (Permutation_middle [] [pt4 2; pt4 4])|exact sx24]|].
  constructor.
Qed.
Lemma sx034 : simplex simplexR 2 5 [pt4 0; pt4 3; pt4 4].
Proof.
  apply (sx_up simplexR 1 5 [2; 3; 9]%N [pt4 0; pt4 3; pt4 4] (rev [pt4 0; pt4 3; pt4 4])); [lia|reflexivity|symmetry; apply Permutation_rev|reflexivity|].
  cbn [rev app].
  constructor; [exists [pt4 0; pt4 3]; split; [symmetry; apply (Permutation_middle [pt4 0; pt4 3] [])|exact sx03]|].
  constructor; [exists [pt4 0; pt4 4]; split; [symmetry; apply (Permutation_middle [pt4 0] [pt4 4])|exact sx04]|].
  constructor; [exists [pt4 3; pt4 4]; split; [symmetry; apply (Permutation_middle [] [pt4 3; pt4 4])|exact sx34]|].
  constructor.
Qed.
Lemma sx123 : simplex simplexR 2 6 [pt4 1; pt4 2; pt4 3].
Proof.
  apply (sx_up simplexR 1 6 [4; 5; 7]%N [pt4 1; pt4 2; pt4 3] (rev [pt4 1; pt4 2; pt4 3])); [lia|reflexivity|symmetry; apply Permutation_rev|reflexivity|].
  cbn [rev app].
  constructor; [exists [pt4 1; pt4 2]; split; [symmetry; apply (Permutation_middle [pt4 1; pt4 2] [])|exact sx12]|].
  constructor; [exists [pt4 1; pt4 3]; split; [symmetry; apply (Permutation_middle [pt4 1] [pt4 3])|exact sx13]|].
  constructor; [exists [pt4 2; pt4 3]; split; [symmetry; apply (Permutation_middle [] [pt4 2; pt4 3])|exact sx23]|].
  constructor.
Qed.
Lemma sx124 : simplex simplexR 2 7 [pt4 1; pt4 2; pt4 4].
Proof.
  apply (sx_up simplexR 1 7 [4; 6; 8]%N [pt4 1; pt4 2; pt4 4] (rev [pt4 1; pt4 2; pt4 4])); [lia|reflexivity|symmetry; apply Permutation_rev|reflexivity|].
  cbn [rev app].
  constructor; [exists [pt4 1; pt4 2]; split; [symmetry; apply (Permutation_middle [pt4 1; pt4 2] [])|exact sx12]|].
  constructor; [exists [pt4 1; pt4 4]; split; [symmetry; apply (Permutation_middle [pt4 1] [pt4 4])|exact sx14]|].
  constructor; [exists [pt4 2; pt4 4]; split; [symmetry; apply (Permutation_middle [] [pt4 2; pt4 4])|exact sx24]|].
  constructor.
Qed.
Lemma sx134 : simplex simplexR 2 8 [pt4 1; pt4 3; pt4 4].
Proof.
  apply (sx_up simplexR 1 8 [5; 6; 9]%N [pt4 1; pt4 3; pt4 4] (rev [pt4 1; pt4 3; pt4 4])); [lia|reflexivity|symmetry; apply Permutation_rev|reflexivity|].
  cbn [rev app].
  constructor; [exists [pt4 1; pt4 3]; split; [symmetry; apply (Permutation_middle [pt4 1; pt4 3] [])|exact sx13]|].
  constructor; [exists [pt4 1; pt4 4]; split; [symmetry; apply (Permutation_middle [pt4 1] [pt4 4])|exact sx14]|].
  constructor; [exists [pt4 3; pt4 4]; split; [symmetry; apply (Permutation_middle [] [pt4 3; pt4 4])|exact sx34]|].
  constructor.
Qed.
Lemma sx234 : simplex simplexR 2 9 [pt4 2; pt4 3; pt4 4].
Proof.
  apply (sx_up simplexR 1 9 [7; 8; 9]%N [pt4 2; pt4 3; pt4 4] (rev [pt4 2; pt4 3; pt4 4])); [lia|reflexivity|symmetry; apply Permutation_rev|reflexivity|].
  cbn [rev app].
  constructor; [exists [pt4 2; pt4 3]; split; [symmetry; apply (Permutation_middle [pt4 2; pt4 3] [])|exact sx23]|].
  constructor; [exists [pt4 2; pt4 4]; split; [symmetry; apply (Permutation_middle [pt4 2] [pt4 4])|exact sx24]|].
  constructor; [exists [pt4 3; pt4 4]; split; [symmetry; apply (Permutation_middle [] [pt4 3; pt4 4])|exact sx34]|].
  constructor.
Qed.
Lemma sx0123 : simplex simplexR 3 0 [pt4 0; pt4 1; pt4 2; pt4 3].
Proof.
  apply (sx_up simplexR 2 0 [0; 1; 3; 6]%N [pt4 0; pt4 1; pt4 2; pt4 3] (rev [pt4 0; pt4 1; pt4 2; pt4 3])); [lia|reflexivity|symmetry; apply Permutation_rev|reflexivity|].
  cbn [rev app].
  constructor; [exists [pt4 0; pt4 1; pt4 2]; split; [symmetry; apply (Permutation_middle [pt4 0; pt4 1; pt4 2] [])|exact sx012]|].
  constructor; [exists [pt4 0; pt4 1; pt4 3]; split; [symmetry; apply (Permutation_middle [pt4 0; pt4 1] [pt4 3])|exact sx013]|].
  constructor; [exists [pt4 0; pt4 2; pt4 3]; split; [symmetry; apply (Permutation_middle [pt4 0] [pt4 2; pt4 3])|exact sx023]|].
  constructor; [exists [pt4 1; pt4 2; pt4 3]; split; [symmetry; apply (Permutation_middle [] [pt4 1; pt4 2; pt4 3])|exact sx123]|].
  constructor.
Qed.
Lemma sx0124 : simplex simplexR 3 1 [pt4 0; pt4 1; pt4 2; pt4 4].
Proof.
  apply (sx_up simplexR 2 1 [0; 2; 4; 7]%N [pt4 0; pt4 1; pt4 2; pt4 4] (rev [pt4 0; pt4 1; pt4 2; pt4 4])); [lia|reflexivity|symmetry; apply Permutation_rev|reflexivity|].
  cbn [rev app].
  constructor; [exists [pt4 0; pt4 1; pt4 2]; split; [symmetry; apply (Permutation_middle [pt4 0; pt4 1; pt4 2] [])|exact sx012]|].
  constructor; [exists [pt4 0; pt4 1; pt4 4]; split; [symmetry; apply (Permutation_middle [pt4 0; pt4 1] [pt4 4])|exact sx014]|].
  constructor; [exists [pt4 0; pt4 2; pt4 4]; split; [symmetry; apply (Permutation_middle [pt4 0] [pt4 2; pt4 4])|exact sx024]|].
  constructor; [exists [pt4 1; pt4 2; pt4 4]; split; [symmetry; apply (Permutation_middle [] [pt4 1; pt4 2; pt4 4])|exact sx124]|].
  constructor.
Qed.
Lemma sx0134 : simplex simplexR 3 2 [pt4 0; pt4 1; pt4 3; pt4 4].
Proof.
  apply (sx_up simplexR 2 2 [1; 2; 5; 8]%N [pt4 0; pt4 1; pt4 3; pt4 4] (rev [pt4 0; pt4 1; pt4 3; pt4 4])); [lia|reflexivity|symmetry; apply Permutation_rev|reflexivity|].
  cbn [rev app].
  constructor; [exists [pt4 0; pt4 1; pt4 3]; split; [symmetry; apply (Permutation_middle [pt4 0; pt4 1; pt4 3] [])|exact sx013]|].
  constructor; [exists [pt4 0; pt4 1; pt4 4]; split; [symmetry; apply (Permutation_middle [pt4 0; pt4 1] [pt4 4])|exact sx014]|].
  constructor; [exists [pt4 0; pt4 3; pt4 4]; split; [symmetry; apply (Permutation_middle [pt4 0] [pt4 3; pt4 4])|exact sx034]|].
  constructor; [exists [pt4 1; pt4 3; pt4 4]; split; [symmetry; apply (Permutation_middle [] [pt4 1; pt4 3; pt4 4])|exact sx134]|].
  constructor.
Qed.
Lemma sx0234 : simplex simplexR 3 3 [pt4 0; pt4 2; pt4 3; pt4 4].
Proof.
  apply (sx_up simplexR 2 3 [3; 4; 5; 9]%N [pt4 0; pt4 2; pt4 3; pt4 4] (rev [pt4 0; pt4 2; pt4 3; pt4 4])); [lia|reflexivity|symmetry; apply Permutation_rev|reflexivity|].
  cbn [rev app].
  constructor; [exists [pt4 0; pt4 2; pt4 3]; split; [symmetry; apply (Permutation_middle [pt4 0; pt4 2; pt4 3] [])|exact sx023]|].
  constructor; [exists [pt4 0; pt4 2; pt4 4]; split; [symmetry; apply (Permutation_middle [pt4 0; pt4 2] [pt4 4])|exact sx024]|].
  constructor; [exists [pt4 0; pt4 3; pt4 4]; split; [symmetry; apply (Permutation_middle [pt4 0] [pt4 3; pt4 4])|exact sx034]|].
  constructor; [exists [pt4 2; pt4 3; pt4 4]; split; [symmetry; apply (Permutation_middle [] [pt4 2; pt4 3; pt4 4])|exact sx234]|].
  constructor.
Qed.
Lemma sx1234 : simplex simplexR 3 4 [pt4 1; pt4 2; pt4 3; pt4 4].
Proof.
  apply (sx_up simplexR 2 4 [6; 7; 8; 9]%N [pt4 1; pt4 2; pt4 3; pt4 4] (rev [pt4 1; pt4 2; pt4 3; pt4 4])); [lia|reflexivity|symmetry; apply Permutation_rev|reflexivity|].
  cbn [rev app].
  constructor; [exists [pt4 1; pt4 2; pt4 3]; split; [symmetry; apply (Permutation_middle [pt4 1; pt4 2; pt4 3] [])|exact sx123]|].
  constructor; [exists [pt4 1; pt4 2; pt4 4]; split; [symmetry; apply (Permutation_middle [pt4 1; pt4 2] [pt4 4])|exact sx124]|].
  constructor; [exists [pt4 1; pt4 3; pt4 4]; split; [symmetry; apply (Permutation_middle [pt4 1] [pt4 3; pt4 4])|exact sx134]|].
  constructor; [exists [pt4 2; pt4 3; pt4 4]; split; [symmetry; apply (Permutation_middle [] [pt4 2; pt4 3; pt4 4])|exact sx234]|].
  constructor.
Qed.
Lemma ring4 : children simplexR 4 0 [0; 1; 2; 3; 4]%N.
Proof.
  exists 0%N, [1; 2; 3; 4]%N. splits; try reflexivity.
  - repeat split; eexists; split; reflexivity.
  - repeat constructor; simpl; intuition discriminate.
Qed.
Lemma sx01234 : simplex simplexR 4 0 [pt4 0; pt4 1; pt4 2; pt4 3; pt4 4].
Proof.
  apply (sx_up simplexR 3 0 [0; 1; 2; 3; 4]%N [pt4 0; pt4 1; pt4 2; pt4 3; pt4 4] (rev [pt4 0; pt4 1; pt4 2; pt4 3; pt4 4])); [lia|exact ring4|symmetry; apply Permutation_rev|reflexivity|].
  cbn [rev app].
  constructor; [exists [pt4 0; pt4 1; pt4 2; pt4 3]; split; [symmetry; apply (Permutation_middle [pt4 0; pt4 1; pt4 2; pt4 3] [])|exact sx0123]|].
  constructor; [exists [pt4 0; pt4 1; pt4 2; pt4 4]; split; [symmetry; apply (Permutation_middle [pt4 0; pt4 1; pt4 2] [pt4 4])|exact sx0124]|].
  constructor; [exists [pt4 0; pt4 1; pt4 3; pt4 4]; split; [symmetry; apply (Permutation_middle [pt4 0; pt4 1] [pt4 3; pt4 4])|exact sx0134]|].
  constructor; [exists [pt4 0; pt4 2; pt4 3; pt4 4]; split; [symmetry; apply (Permutation_middle [pt4 0] [pt4 2; pt4 3; pt4 4])|exact sx0234]|].
  constructor; [exists [pt4 1; pt4 2; pt4 3; pt4 4]; split; [symmetry; apply (Permutation_middle [] [pt4 1; pt4 2; pt4 3; pt4 4])|exact sx1234]|].
  constructor.
Qed.
Lemma indep4 : aff_indep 4 [pt4 0; pt4 1; pt4 2; pt4 3; pt4 4].
Proof.
  intros l E S [_ C] wp Hw.
  destruct l as [|[w0 q0] [|[w1 q1] [|[w2 q2] [|[w3 q3] [|[w4 q4] [|]]]]]]; try discriminate. cbn [map snd] in E.
  injection E as -> -> -> -> ->. pose proof (C 0%nat ltac:(lia)) as C0. pose proof (C 1%nat ltac:(lia)) as C1.
  pose proof (C 2%nat ltac:(lia)) as C2. pose proof (C 3%nat ltac:(lia)) as C3. clear C.
  cbn in S, C0, C1, C2, C3. assert (w1 = 0) by lra. assert (w2 = 0) by lra. assert (w3 = 0) by lra. assert (w4 = 0) by lra.
  destruct Hw as [<-|[<-|[<-|[<-|[<-|[]]]]]]; cbn; lra.
Qed.
Lemma len4 : forall p, In p [pt4 0; pt4 1; pt4 2; pt4 3; pt4 4] -> length p = 4%nat.
Proof. intros p H. simpl in H. repeat destruct H as [<-|H]; try reflexivity; destruct H. Qed.
(** Its volume is 1 / 24. *)
Lemma foot4 i ps : In (pt4 0) ps -> (forall p, In p ps -> exists j, (j < i)%nat /\ p = pt4 j) -> (i <= 4)%nat -> (1 <= i)%nat ->
  height 4 ps (pt4 i) 1.
Proof.
  intros H0 Hp Hi H1. exists (pt4 0). split.
  - split.
    + apply in_split in H0 as (l1 & l2 & ->). exists (map (fun p => (0, p)) l1 ++ (1, pt4 0) :: map (fun p => (0, p)) l2).
      assert (Z : forall (f : R * point -> R) l, (forall p, f (0, p) = 0) -> Rsum (map f (map (fun p : point => (0, p)) l)) = 0).
      { intros f l Hf. induction l as [|p l IH]; [reflexivity|]. cbn [map Rsum]. rewrite IH, Hf. ring. }
      assert (App : forall a b, Rsum (a ++ b) = Rsum a + Rsum b) by (induction a as [|x a IH]; intros; simpl; [ring|rewrite IH; ring]).
      split; [rewrite map_app; cbn [map snd]; rewrite !map_map; cbn; rewrite !map_id; reflexivity|]. split.
      * rewrite map_app, App. cbn [map Rsum]. rewrite !Z by (intros; reflexivity). cbn. ring.
      * split; [reflexivity|]. intros t Ht. rewrite map_app, App. cbn [map Rsum]. rewrite !Z by (intros; cbn; ring). cbn [fst snd]. ring.
    + intros p p' Hpp Hpp'. destruct (Hp p Hpp) as (j & Hj & ->). destruct (Hp p' Hpp') as (j' & Hj' & ->).
      destruct i as [|[|[|[|[|i]]]]]; try lia;
        destruct j as [|[|[|[|[|j]]]]]; try lia; destruct j' as [|[|[|[|[|j']]]]]; try lia; cbn; ring.
  - unfold dist. replace (sprod (diff (pt4 i) (pt4 0)) (diff (pt4 i) (pt4 0))) with 1; [symmetry; apply sqrt_1|].
    destruct i as [|[|[|[|[|i]]]]]; try lia; cbn; ring.
Qed.
Lemma svol4 : svol 4 [pt4 0; pt4 1; pt4 2; pt4 3; pt4 4] (1 / 24).
Proof.
  assert (S1 : svol 4 [pt4 0] 1) by (constructor; reflexivity).
  assert (A : forall i ps V, svol 4 ps V -> In (pt4 0) ps -> (forall p, In p ps -> exists j, (j < i)%nat /\ p = pt4 j) -> (i <= 4)%nat -> (1 <= i)%nat ->
    svol 4 (ps ++ [pt4 i]) (V * 1 / INR (length ps))).
  { intros. constructor; [assumption|reflexivity|apply foot4; assumption]. }
  assert (B : forall n i, (i < n)%nat -> forall p, In p (map pt4 (seq 0 n)) -> exists j, (j < n)%nat /\ p = pt4 j).
  { intros n i _ p Hp. apply in_map_iff in Hp as (j & <- & Hj). apply in_seq in Hj. exists j. split; [lia|reflexivity]. }
  pose proof (A 1%nat _ _ S1 (or_introl eq_refl) (B 1%nat 0%nat ltac:(lia)) ltac:(lia) ltac:(lia)) as S2.
  pose proof (A 2%nat _ _ S2 (or_introl eq_refl) (B 2%nat 0%nat ltac:(lia)) ltac:(lia) ltac:(lia)) as S3.
  pose proof (A 3%nat _ _ S3 (or_introl eq_refl) (B 3%nat 0%nat ltac:(lia)) ltac:(lia) ltac:(lia)) as S4.
  pose proof (A 4%nat _ _ S4 (or_introl eq_refl) (B 4%nat 0%nat ltac:(lia)) ltac:(lia) ltac:(lia)) as S5.
  cbn [app length] in S5. replace (1 / 24) with (1 * 1 / INR 1 * 1 / INR 2 * 1 / INR 3 * 1 / INR 4) by (simpl; field). exact S5.
Qed.

(** From polygons of vertex numbers to areas of moved polygons. *)
From Coq Require Import Reals Lra Permutation.
From Verif Require Import P_Base M_Conn M_Index M_Mesh M_Apply S_Mesh P_Apply M_Vec S_Vec P_Vec M_Geom S_Geom P_Geom P_Centers S_Polygon P_Polygon P_Convex
  T_Gauss2 T_ConvexVTK S_FPMA S_Near P_Near.
Local Open Scope R_scope.

Lemma cycle_near d ps ps' : Forall2 (near_point d) ps ps' ->
  Forall2 (fun e e' => near_point d (fst e) (fst e') /\ near_point d (snd e) (snd e')) (cycle_edges ps) (cycle_edges ps').
Proof.
  assert (Path : forall l l', Forall2 (near_point d) l l' -> forall p p', near_point d p p' ->
    Forall2 (fun e e' => near_point d (fst e) (fst e') /\ near_point d (snd e) (snd e')) (path_edges p l) (path_edges p' l')).
  { induction 1 as [|q q' l l' H F IH]; intros p p' Hp; cbn [path_edges]; constructor; [split; assumption|apply IH; assumption]. }
  intros [|p p' l l' H F]; [constructor|]. unfold cycle_edges. apply Path; [|exact H]. apply Forall2_app; [exact F|]. constructor; [exact H|constructor].
Qed.
Lemma mean_box n w ps c : is_mean n ps c -> (forall p, In p ps -> length p = n) -> width w ps -> forall p, In p ps -> box w c p.
Proof.
  intros H L W p Hp i. rewrite Rabs_minus_sym. apply (mean_width n w ps c H L); [apply L; exact Hp| |intros ->; destruct Hp].
  intros q j Hq. apply W; assumption.
Qed.
Section Poly.
Variables (d w : R) (n : nat) (ps ps' : list point) (c c' : point).
Hypotheses (Hm : is_mean n ps c) (Hm' : is_mean n ps' c') (HL : forall p, In p ps -> length p = n) (HL' : forall p, In p ps' -> length p = n)
  (HN : Forall2 (near_point d) ps ps') (HW : width w ps).
Lemma poly_center_near : ps <> [] -> near_point d c c'.
Proof. intros NE. eapply near_mean; eassumption. Qed.
Lemma poly_near2 : Rabs (Rsum (map (fun e => Rabs (area2 c' (fst e) (snd e)) / 2) (cycle_edges ps')) - Rsum (map (fun e => Rabs (area2 c (fst e) (snd e)) / 2) (cycle_edges ps)))
  <= INR (length ps) * ((w + 2 * d) * (w + 2 * d) - w * w).
Proof.
  rewrite <- (cycle_length ps). apply Rsum_near. pose proof (cycle_near d ps ps' HN) as F. apply Forall2_nth in F as [LF F]. apply Forall2_nth. split; [exact LF|].
  intros i e e' He He'. destruct (F i e e' He He') as [N1 N2]. destruct (cycle_in ps e (nth_error_In _ _ He)) as [I1 I2].
  apply area2_near; try assumption; [apply poly_center_near; intros ->; destruct I1| |]; eapply mean_box; eassumption.
Qed.
Lemma poly_near3 : n = 3%nat -> Rabs (Rsum (map (fun e => tri_area c' (fst e) (snd e)) (cycle_edges ps')) - Rsum (map (fun e => tri_area c (fst e) (snd e)) (cycle_edges ps)))
  <= INR (length ps) * (sqrt 3 * ((w + 2 * d) * (w + 2 * d) - w * w)).
Proof.
  intros E3. rewrite <- (cycle_length ps). apply Rsum_near. pose proof (cycle_near d ps ps' HN) as F. apply Forall2_nth in F as [LF F]. apply Forall2_nth. split; [exact LF|].
  intros i e e' He He'. destruct (F i e e' He He') as [N1 N2]. destruct (cycle_in ps e (nth_error_In _ _ He)) as [I1 I2]. destruct (cycle_in ps' e' (nth_error_In _ _ He')) as [I1' I2'].
  assert (Lc : length c = 3%nat) by (rewrite <- E3; apply Hm). assert (Lc' : length c' = 3%nat) by (rewrite <- E3; apply Hm').
  apply tri_near; try assumption; try (rewrite <- E3; auto); [apply poly_center_near; intros ->; destruct I1| |]; eapply mean_box; eassumption.
Qed.
End Poly.

Section Bounds.
Variables (M : Mesh point) (edges : list (list N)) (P : N -> point).
Hypothesis HE : forall e a b, nth_error edges (N.to_nat e) = Some [a; b] -> edge_points M e (P a) (P b).
Lemma bounds_traces es vs : bounds edges es vs ->
  exists segs, Forall2 (fun f e => edge_points M f (fst e) (snd e)) es segs /\ traces segs (cycle_edges (map P vs)).
Proof.
  intros (Pv & es' & Pm & _ & Ls & S).
  assert (H : exists segs, Forall2 (fun f e => edge_points M f (fst e) (snd e)) es' segs /\ Forall2 (fun e d => d = e \/ d = rev_edge e) segs (cycle_edges (map P vs))).
  { assert (Q : Forall2 (fun f d => exists e, edge_points M f (fst e) (snd e) /\ (d = e \/ d = rev_edge e)) es' (cycle_edges (map P vs))).
    { apply Forall2_of_nth; [rewrite cycle_length, map_length; exact Ls|]. intros k f e Hk He.
      assert (Hlt : (k < length vs)%nat) by (rewrite <- Ls; apply nth_error_Some; congruence).
      destruct (side_at vs k Hlt) as (x & y & Hxy). rewrite (side_cycle P vs k x y Hxy) in He. injection He as <-.
      destruct (S k f x y Hk Hxy) as [J|J]; apply HE in J; [exists (P x, P y)|exists (P y, P x)]; (split; [exact J|]); [left|right]; reflexivity. }
    clear -Q. induction Q as [|f e l k (s & A & B) F (segs & C & D)]; [exists []; split; constructor|]. exists (s :: segs). split; constructor; assumption. }
  destruct H as (segs & H1 & H2). destruct (Permutation_Forall2 (Permutation_sym Pm) H1) as (segs' & P1 & F1). exists segs'. split; [exact F1|].
  destruct (Permutation_Forall2 P1 H2) as (ds & P2 & F2). exists ds. split; assumption.
Qed.
End Bounds.
Lemma area2_rev c e : Rabs (area2 c (fst (rev_edge e)) (snd (rev_edge e))) / 2 = Rabs (area2 c (fst e) (snd e)) / 2.
Proof. cbn [rev_edge fst snd]. f_equal. rewrite <- (Rabs_Ropp (area2 c (fst e) (snd e))). f_equal. unfold area2, det2. ring. Qed.
Lemma tri_rev c e : tri_area c (fst (rev_edge e)) (snd (rev_edge e)) = tri_area c (fst e) (snd e).
Proof. cbn [rev_edge fst snd]. unfold tri_area. f_equal. f_equal. rewrite (sprod_comm (diff (snd e) c) (diff (fst e) c)). ring. Qed.

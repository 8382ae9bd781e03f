From Coq Require Import Reals Lra Permutation.
From Verif Require Import P_Base S_Vec S_Geom S_Polygon P_Geom.
Local Open Scope R_scope.

Lemma path_telescope (g : point -> R) l : forall p q,
  Rsum (map (fun e => g (snd e) - g (fst e)) (path_edges p (l ++ [q]))) = g q - g p.
Proof. induction l as [|x l IH]; intros p q; simpl; [ring|]. rewrite IH. ring. Qed.
Lemma cycle_telescope (g : point -> R) vs : Rsum (map (fun e => g (snd e) - g (fst e)) (cycle_edges vs)) = 0.
Proof. destruct vs as [|v r]; [reflexivity|]. unfold cycle_edges. rewrite path_telescope. ring. Qed.
(** The signed areas of the triangles with a common apex add up to the signed area of the polygon. *)
Lemma cycle_area2 c vs : Rsum (map (fun e => area2 c (fst e) (snd e)) (cycle_edges vs)) = 2 * shoelace vs.
Proof.
  unfold shoelace.
  rewrite (Rsum_ext _ (fun e => (px (fst e) * py (snd e) - px (snd e) * py (fst e)) +
     ((fun p => py c * px p - px c * py p) (snd e) - (fun p => py c * px p - px c * py p) (fst e)))).
  - rewrite Rsum_plus, (cycle_telescope (fun p => py c * px p - px c * py p)). lra.
  - intros e _. unfold area2, det2. ring.
Qed.
Lemma traces_sum (h : point * point -> R) es ds : (forall e, h (rev_edge e) = h e) -> traces es ds ->
  Rsum (map h es) = Rsum (map h ds).
Proof.
  intros Hh (ds' & HP & HF). rewrite (Rsum_perm _ _ (Permutation_map h HP)). clear HP ds.
  induction HF as [|e d es ds [-> | ->] HF IH]; simpl; [reflexivity|rewrite IH; reflexivity|rewrite IH, Hh; reflexivity].
Qed.
Lemma Rsum_abs {A} (h : A -> R) l : Rabs (Rsum (map h l)) <= Rsum (map (fun x => Rabs (h x)) l).
Proof.
  induction l as [|x l IH]; simpl; [rewrite Rabs_R0; lra|].
  eapply Rle_trans; [apply Rabs_triang|]. apply Rplus_le_compat_l. exact IH.
Qed.
Lemma Rsum_abs_pos {A} (h : A -> R) l : (forall x, In x l -> 0 <= h x) -> Rsum (map (fun x => Rabs (h x)) l) = Rabs (Rsum (map h l)).
Proof.
  intros H. rewrite (Rsum_ext _ h) by (intros x Hx; apply Rabs_right; pose proof (H x Hx); lra).
  symmetry. apply Rabs_right. pose proof (Rsum_nonneg h l H). lra.
Qed.
Lemma Rsum_abs_neg {A} (h : A -> R) l : (forall x, In x l -> h x <= 0) -> Rsum (map (fun x => Rabs (h x)) l) = Rabs (Rsum (map h l)).
Proof.
  intros H. rewrite (Rsum_ext _ (fun x => Rabs (- h x))) by (intros; symmetry; apply Rabs_Ropp).
  rewrite (Rsum_abs_pos (fun x => - h x)) by (intros x Hx; pose proof (H x Hx); lra).
  rewrite (Rsum_ext _ (fun x => -1 * h x)) by (intros; ring). rewrite Rsum_scale.
  replace (-1 * Rsum (map h l)) with (- Rsum (map h l)) by ring. apply Rabs_Ropp.
Qed.
Lemma area2_rev c a b : area2 c b a = - area2 c a b.
Proof. unfold area2, det2. ring. Qed.
Lemma fan_bounds c es vs : traces es (cycle_edges vs) ->
  let A := Rsum (map (fun e => Rabs (area2 c (fst e) (snd e)) / 2) es) in
  Rabs (shoelace vs) <= A /\
  ((forall e, In e (cycle_edges vs) -> 0 <= area2 c (fst e) (snd e)) \/ (forall e, In e (cycle_edges vs) -> area2 c (fst e) (snd e) <= 0) ->
   A = Rabs (shoelace vs)).
Proof.
  intros HT A.
  assert (EA : A = Rsum (map (fun e => Rabs (area2 c (fst e) (snd e))) (cycle_edges vs)) / 2).
  { unfold A. rewrite (traces_sum (fun e => Rabs (area2 c (fst e) (snd e)) / 2) es _ (fun e => ltac:(cbn [rev_edge fst snd]; rewrite area2_rev, Rabs_Ropp; reflexivity)) HT).
    rewrite (Rsum_ext _ (fun e => / 2 * Rabs (area2 c (fst e) (snd e)))) by (intros; field). rewrite Rsum_scale. field. }
  assert (ES : Rabs (shoelace vs) = Rabs (Rsum (map (fun e => area2 c (fst e) (snd e)) (cycle_edges vs))) / 2).
  { rewrite cycle_area2, Rabs_mult, (Rabs_right 2) by lra. field. }
  rewrite EA, ES. split.
  - pose proof (Rsum_abs (fun e => area2 c (fst e) (snd e)) (cycle_edges vs)). lra.
  - intros [H|H].
    + rewrite (Rsum_abs_pos (fun e => area2 c (fst e) (snd e)) _ H). reflexivity.
    + rewrite (Rsum_abs_neg (fun e => area2 c (fst e) (snd e)) _ H). reflexivity.
Qed.

From Coq Require Import Reals Lra Permutation.
From Verif Require Import P_Base M_Conn M_Index M_Mesh M_Apply S_Mesh P_Apply M_Vec S_Vec P_Vec M_Geom S_Geom P_Geom P_Centers S_Polygon P_Polygon S_Flux S_Convex.
Local Open Scope R_scope.

(** * Cycles *)
Lemma path_edges_fst p l q : map fst (path_edges p (l ++ [q])) = p :: l.
Proof. revert p. induction l as [|x l IH]; intros p; simpl; [reflexivity|]. rewrite IH. reflexivity. Qed.
Lemma path_edges_snd p l : map snd (path_edges p l) = l.
Proof. revert p. induction l as [|x l IH]; intros p; simpl; [reflexivity|]. rewrite IH. reflexivity. Qed.
Lemma cycle_fst vs : map fst (cycle_edges vs) = vs.
Proof. destruct vs as [|v r]; [reflexivity|]. apply path_edges_fst. Qed.
Lemma cycle_snd vs : Permutation (map snd (cycle_edges vs)) vs.
Proof. destruct vs as [|v r]; [constructor|]. unfold cycle_edges. rewrite path_edges_snd. symmetry. apply Permutation_cons_append. Qed.
Lemma cycle_length vs : length (cycle_edges vs) = length vs.
Proof. rewrite <- (cycle_fst vs) at 2. symmetry. apply map_length. Qed.
Lemma cycle_in vs e : In e (cycle_edges vs) -> In (fst e) vs /\ In (snd e) vs.
Proof.
  intros H. split.
  - rewrite <- (cycle_fst vs). apply in_map. assumption.
  - apply (Permutation_in _ (cycle_snd vs)). apply in_map. assumption.
Qed.
Lemma cycle_sums (g : point -> R) vs : Rsum (map (fun e => (g (fst e) + g (snd e)) / 2) (cycle_edges vs)) = Rsum (map g vs).
Proof.
  rewrite (Rsum_ext _ (fun e => / 2 * g (fst e) + / 2 * g (snd e))) by (intros; field). rewrite Rsum_plus, !Rsum_scale.
  rewrite <- (map_map fst g), <- (map_map snd g), cycle_fst, (Rsum_perm _ _ (Permutation_map g (cycle_snd vs))). field.
Qed.
Lemma traces_length es ds : traces es ds -> length es = length ds.
Proof. intros (ds' & HP & HF). rewrite (Permutation_length HP). eapply Forall2_length'. exact HF. Qed.

(** The centre of a polygonal element is the mean of its vertices. *)
Lemma polygon_center (m : Mesh point) cs i js es vs c : centers_spec m cs -> (2 <= m_dim m)%nat -> children m 2 i js ->
  Forall2 (fun f e => edge_points m f (fst e) (snd e)) js es -> traces es (cycle_edges vs) -> at_ cs 2 i = Some c -> is_mean (m_dim m) vs c.
Proof.
  intros S HD Hj HF HT Hc. destruct (cs_mean _ _ S 2 i js c ltac:(lia) Hj Hc) as (ps & HP & Lc & Hm). cbn [Nat.sub] in HP.
  split; [assumption|]. intros k Hk. rewrite (Hm k Hk).
  assert (LE : length ps = length vs).
  { rewrite <- (Forall2_length' _ _ _ HP), (Forall2_length' _ _ _ HF), (traces_length _ _ HT). apply cycle_length. }
  rewrite LE. f_equal. rewrite <- (cycle_sums (fun p => nth k p 0) vs).
  rewrite <- (traces_sum (fun e => (nth k (fst e) 0 + nth k (snd e) 0) / 2) es _) by (exact HT || (intros e; cbn [rev_edge fst snd]; field)).
  clear -S HF HP Hk. revert ps HP. induction HF as [|j e js es He HF IH]; intros ps HP; inversion HP as [|? p ? ps' Hp HP' E1 E2]; subst; [reflexivity|].
  cbn [map Rsum]. f_equal; [|apply IH; assumption].
  destruct (cs_edge _ _ S _ _ _ _ He Hp) as [_ Hmid]. rewrite (Hmid k Hk). simpl. field.
Qed.

(** * Affine functions *)
Lemma mean_affine2 (al be ga : R) ps c : is_mean 2 ps c -> ps <> [] ->
  al * px c + be * py c + ga = Rsum (map (fun p => al * px p + be * py p + ga) ps) / INR (length ps).
Proof.
  intros [_ H] Hne. assert (HN : 0 < INR (length ps)) by (apply lt_0_INR; destruct ps; [congruence|simpl; lia]).
  unfold px, py. rewrite (H 0%nat ltac:(lia)), (H 1%nat ltac:(lia)).
  assert (E : Rsum (map (fun p : point => al * nth 0 p 0 + be * nth 1 p 0 + ga) ps) =
    al * Rsum (map (fun p => nth 0 p 0) ps) + be * Rsum (map (fun p => nth 1 p 0) ps) + ga * INR (length ps)).
  { clear. induction ps as [|p ps IH]; [simpl; ring|]. cbn [map Rsum]. rewrite IH. cbn [length]. rewrite S_INR. ring. }
  rewrite E. field. lra.
Qed.
Lemma mean_area2 ps c a b : is_mean 2 ps c -> ps <> [] -> area2 c a b = Rsum (map (fun v => area2 v a b) ps) / INR (length ps).
Proof.
  intros H Hne.
  rewrite (Rsum_ext _ (fun p => (py a - py b) * px p + (px b - px a) * py p + (px a * py b - px b * py a))) by (intros; unfold area2, det2; ring).
  rewrite <- (mean_affine2 _ _ _ ps c H Hne). unfold area2, det2. ring.
Qed.
Lemma Rsum_pos {A} (h : A -> R) l : (forall x, In x l -> 0 <= h x) -> (exists x, In x l /\ 0 < h x) -> 0 < Rsum (map h l).
Proof.
  induction l as [|y l IH]; intros H (x & Hx & Hp); [destruct Hx|]. cbn [map Rsum].
  assert (0 <= Rsum (map h l)) by (apply Rsum_nonneg; intros; apply H; right; assumption).
  pose proof (H y (or_introl eq_refl)). destruct Hx as [->|Hx]; [lra|].
  assert (0 < Rsum (map h l)) by (apply IH; [intros; apply H; right; assumption|eauto]). lra.
Qed.
Lemma convex_center vs c e : convex_ccw vs -> is_mean 2 vs c -> In e (cycle_edges vs) -> 0 < area2 c (fst e) (snd e).
Proof.
  intros HC Hm He. destruct (HC e He) as [H1 H2]. assert (Hne : vs <> []) by (intros ->; destruct He).
  rewrite (mean_area2 vs c _ _ Hm Hne). apply Rdiv_lt_0_compat; [apply Rsum_pos; assumption|]. apply lt_0_INR. destruct vs; [congruence|simpl; lia].
Qed.
Lemma convex_area vs c : vs <> [] -> convex_ccw vs -> is_mean 2 vs c -> 0 < shoelace vs.
Proof.
  intros Hne HC Hm. assert (0 < 2 * shoelace vs); [|lra]. rewrite <- (cycle_area2 c vs). apply Rsum_pos.
  - intros e He. apply Rlt_le. eapply convex_center; eassumption.
  - destruct (cycle_edges vs) as [|e l] eqn:E; [exfalso; apply (f_equal (@length _)) in E; rewrite cycle_length in E; destruct vs; [congruence|discriminate]|].
    exists e. split; [left; reflexivity|]. eapply convex_center; [eassumption|eassumption|rewrite E; left; reflexivity].
Qed.
Lemma area2_degenerate c a : area2 c a a = 0.
Proof. unfold area2, det2. ring. Qed.

(** Proofs about the geometric functions over the reals. *)
From Coq Require Import Reals Lra Psatz.
From Verif Require Import P_Base M_Conn M_Index M_Mesh M_Apply S_Mesh P_Apply M_Vec S_Vec P_Vec P_GS P_GS3 M_Geom S_Geom.
Local Open Scope R_scope.

Lemma vsub_diff (p q : rv) : vsub (K := numR) p q = diff p q.
Proof. revert q. induction p as [|x p IH]; intros [|y q]; try reflexivity.
  change (vsub (K := numR) (x :: p) (y :: q)) with ((x - y) :: vsub (K := numR) p q). rewrite IH. reflexivity. Qed.
Lemma diff_length (p q : rv) : length p = length q -> length (diff p q) = length p.
Proof. intros H. rewrite <- vsub_diff. apply vsub_length. assumption. Qed.
Lemma sprod_diff_l (p q w : rv) : length p = length q -> sprod (diff p q) w = sprod p w - sprod q w.
Proof. intros H. rewrite <- vsub_diff. apply sprod_vsub_l. assumption. Qed.
Lemma sprod_diff_r (p q w : rv) : length p = length q -> sprod w (diff p q) = sprod w p - sprod w q.
Proof. intros H. rewrite sprod_comm, sprod_diff_l by assumption. rewrite !(sprod_comm _ w). reflexivity. Qed.
Lemma norm_dist (p q : rv) : normEuclid (K := numR) (vsub (K := numR) p q) = dist p q.
Proof.
  unfold normEuclid, dist, sumOfSquares. rewrite dot_sprod, vsub_diff. reflexivity.
Qed.
Lemma dist_sym (p q : rv) : dist p q = dist q p.
Proof.
  unfold dist. f_equal. revert q. induction p as [|x p IH]; intros [|y q]; simpl; try reflexivity.
  rewrite IH. ring.
Qed.
Lemma dist_pos (p q : rv) : length p = length q -> p <> q -> 0 < dist p q.
Proof.
  intros L H. unfold dist. apply sqrt_lt_R0.
  pose proof (sprod_nonneg (diff p q)). destruct (Req_dec (sprod (diff p q) (diff p q)) 0) as [E|]; [|lra].
  exfalso. apply H. apply nth_ext_R; [assumption|]. intros i Hi.
  apply sprod_zero_inv in E. rewrite diff_length in E by assumption.
  assert (E2 : nth i (diff p q) 0 = 0) by (rewrite E, nth_repeat; reflexivity).
  rewrite <- vsub_diff in E2. unfold vsub in E2.
  assert (Ez : nth i p 0 - nth i q 0 = 0)
    by (transitivity (nth i (zip (K := numR) Rminus p q) 0); [symmetry; apply (zip_nth Rminus); lia|exact E2]).
  lra.
Qed.
Lemma len2 (u : rv) : length u = 2%nat -> exists a b, u = [a; b].
Proof. destruct u as [|a [|b [|]]]; try discriminate. intros _. eauto. Qed.

Lemma ends_edge (m : Mesh rv) e a b : edge_points m e a b <-> edge_pts (K := numR) m e = Ok (a, b).
Proof.
  unfold edge_points, edge_pts, ends. split.
  - intros (i & j & H & Hi & Hj). nr. rewrite H. simpl. apply vat_ok in Hi, Hj. nr. rewrite Hi. simpl. rewrite Hj. reflexivity.
  - intros H. apply bind_ok in H as ([i j] & H1 & H). apply bind_ok in H1 as (l & Hl & E).
    destruct l as [|x [|y [|]]]; try discriminate. injection E as -> ->.
    apply bind_ok in H as (a' & Ha & H). apply bind_ok in H as (b' & Hb & H). injection H as -> ->.
    apply vat_ok in Ha, Hb. simpl in Ha, Hb. exists i, j. auto.
Qed.
Lemma edge_points_total (m : Mesh rv) e : geo_mesh m -> (e < N.of_nat (n_elems m 1))%N ->
  exists a b, edge_points m e a b.
Proof.
  intros G He. pose proof (wf_dim _ (geo_wf _ G)).
  destruct (subs_total m 1 e ltac:(lia) He) as (js & Hs).
  destruct (wf_subs _ (geo_wf _ G) 1%nat e js ltac:(lia) Hs) as (_ & Hlt & Hl).
  specialize (Hl eq_refl). destruct js as [|i [|j [|]]]; try discriminate.
  destruct (vat_lt (m_verts m) i) as [a Ha]; [apply Hlt; left; reflexivity|].
  destruct (vat_lt (m_verts m) j) as [b Hb]; [apply Hlt; right; left; reflexivity|].
  exists a, b, i, j. apply vat_ok in Ha, Hb. auto.
Qed.
Lemma edge_points_length (m : Mesh rv) e a b : geo_mesh m -> edge_points m e a b ->
  length a = m_dim m /\ length b = m_dim m.
Proof.
  intros G (i & j & _ & Ha & Hb). split; apply (geo_pts _ G); eapply nth_error_In; eassumption.
Qed.
Lemma edge_points_det (m : Mesh rv) e a b a' b' : edge_points m e a b -> edge_points m e a' b' -> a = a' /\ b = b'.
Proof. rewrite !ends_edge. intros H1 H2. split; congruence. Qed.

Lemma Rsum_app l1 l2 : Rsum (l1 ++ l2) = Rsum l1 + Rsum l2.
Proof. induction l1 as [|x l IH]; simpl; [ring|]. rewrite IH. ring. Qed.
Lemma Rsum_perm l1 l2 : Permutation l1 l2 -> Rsum l1 = Rsum l2.
Proof. induction 1; simpl; lra. Qed.
Lemma fold_Rsum (l : list R) : fold_left Rplus l 0 = Rsum l.
Proof. induction l as [|x l IH]; [reflexivity|]. simpl. rewrite fold_plus, IH. ring. Qed.
Lemma Rsum_scale {A} (f : A -> R) (a : R) l : Rsum (map (fun x => a * f x) l) = a * Rsum (map f l).
Proof. induction l as [|x l IH]; simpl; [ring|]. rewrite IH. ring. Qed.
Lemma Rsum_plus {A} (f g : A -> R) l : Rsum (map (fun x => f x + g x) l) = Rsum (map f l) + Rsum (map g l).
Proof. induction l as [|x l IH]; simpl; [ring|]. rewrite IH. ring. Qed.
Lemma Rsum_minus {A} (f g : A -> R) l : Rsum (map (fun x => f x - g x) l) = Rsum (map f l) - Rsum (map g l).
Proof. induction l as [|x l IH]; simpl; [ring|]. rewrite IH. ring. Qed.
Lemma Rsum_const {A} (a : R) (l : list A) : Rsum (map (fun _ => a) l) = INR (length l) * a.
Proof. induction l as [|x l IH]; [simpl; ring|]. cbn [map Rsum length]. rewrite IH, S_INR. ring. Qed.
Lemma Rsum_ext {A} (f g : A -> R) l : (forall x, In x l -> f x = g x) -> Rsum (map f l) = Rsum (map g l).
Proof. intros H. f_equal. apply map_ext_in. assumption. Qed.
Lemma Rsum_nonneg {A} (f : A -> R) l : (forall x, In x l -> 0 <= f x) -> 0 <= Rsum (map f l).
Proof.
  induction l as [|x l IH]; simpl; intros H; [lra|].
  pose proof (H x (or_introl eq_refl)). specialize (IH (fun y Hy => H y (or_intror Hy))). lra.
Qed.

(** Tables produced by loops over all elements. *)
Lemma table_ok {A} (f : N -> outcome A) (P : N -> A -> Prop) n :
  (forall i, (i < N.of_nat n)%N -> exists a, f i = Ok a /\ P i a) ->
  exists l, mapM f (seqN n) = Ok l /\ length l = n /\
    (forall i a, nth_error l (N.to_nat i) = Some a -> P i a) /\
    (forall i a, nth_error l (N.to_nat i) = Some a <-> (i < N.of_nat n)%N /\ f i = Ok a).
Proof.
  intros H.
  assert (E : exists l, mapM f (seqN n) = Ok l).
  { assert (HH : forall ll, (forall i, In i ll -> (i < N.of_nat n)%N) -> exists l, mapM f ll = Ok l).
    { induction ll as [|i ll IH]; intros Hi; [exists []; reflexivity|].
      destruct (H i (Hi i (or_introl eq_refl))) as (a & Ha & _).
      destruct IH as (l & El); [intros; apply Hi; right; assumption|]. exists (a :: l). simpl. rewrite Ha. simpl. rewrite El. reflexivity. }
    apply HH. intros i. apply in_seqN. }
  destruct E as (l & E). exists l. split; [assumption|].
  apply mapM_ok in E. apply Forall2_nth in E as [EL E]. rewrite seqN_length in EL. symmetry in EL. split; [assumption|].
  assert (Q : forall i a, nth_error l (N.to_nat i) = Some a <-> (i < N.of_nat n)%N /\ f i = Ok a).
  { intros i a. split.
    - intros Ha. assert (N.to_nat i < length l)%nat by (apply nth_error_Some; congruence).
      split; [lia|]. apply (E (N.to_nat i) i a); [|assumption]. rewrite nth_error_seqN by lia. f_equal. lia.
    - intros [Hi Hf]. destruct (nth_error l (N.to_nat i)) as [b|] eqn:Eb; [|apply nth_error_None in Eb; lia].
      assert (f i = Ok b). { apply (E (N.to_nat i) i b); [|assumption]. rewrite nth_error_seqN by lia. f_equal. lia. }
      congruence. }
  split; [|assumption]. intros i a Ha. apply Q in Ha as [Hi Hf]. destruct (H i Hi) as (b & Hb & Hp). congruence.
Qed.

Lemma foldM_sum {A} (f : R -> A -> outcome R) (h : A -> R) l (s : R) :
  (forall s x, In x l -> f s x = Ok (s + h x)) -> foldM f l s = Ok (s + Rsum (map h l)).
Proof.
  revert s. induction l as [|x l IH]; intros s H; simpl; [f_equal; ring|].
  rewrite H by (left; reflexivity). simpl. rewrite IH by (intros; apply H; right; assumption). f_equal. ring.
Qed.

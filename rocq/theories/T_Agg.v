(** C52: max, min and sum of a traited value. *)
From Coq Require Import Reals Lra Lia.
From Verif Require Import Base P_Base M_Vec M_Traits S_Traits P_Traits P_Agg.

Lemma amax_le (x y : R) : (x <= amax (K := numR) x y /\ y <= amax (K := numR) x y)%R.
Proof. unfold amax. cbn. unfold Rgtb. destruct (Rlt_dec x y); lra. Qed.
Lemma amin_ge (x y : R) : (x >= amin (K := numR) x y /\ y >= amin (K := numR) x y)%R.
Proof. unfold amin. cbn. unfold Rgtb. destruct (Rlt_dec y x); lra. Qed.

Lemma amax_same (x : numR) : amax x x = x.
Proof. unfold amax. destruct (ngtb x x); reflexivity. Qed.
Lemma amax_lt (x y : R) : (x < y)%R -> amax (K := numR) x y = y.
Proof. intros H. unfold amax. cbn. unfold Rgtb. destruct (Rlt_dec x y); [reflexivity|contradiction]. Qed.

(** The maximum is not below any of the numbers the value consists of and is one of them - or is 0 if a
    container in it has no elements (which counts as the number 0). *)
Theorem C52_max : forall (t : aty) (v : aval R), wt (K := numR) t v ->
  exists m : R, aggMax (K := numR) t v = Ok m /\
    (forall p x, leafAt (K := numR) t v p x -> (x <= m)%R) /\
    (~ hasEmpty (K := numR) t v -> exists p, leafAt (K := numR) t v p m) /\
    (hasEmpty (K := numR) t v -> (0 <= m)%R /\ (m = 0%R \/ exists p, leafAt (K := numR) t v p m)).
Proof.
  intros t v W.
  destruct (agg_sel (K := numR) amax Rle Rle_refl Rle_trans amax_le
             ltac:(intros x y; unfold amax; destruct (ngtb (n := numR) y x); auto) t v W) as (m & E & H1 & H2 & H3).
  exists m. splits; auto.
  - intros NE. destruct H3 as [H|(H & _)]; [auto|contradiction].
  - intros HE. split; [exact (H2 HE)|]. destruct H3 as [H|(_ & H)]; auto.
Qed.
Theorem C52_min : forall (t : aty) (v : aval R), wt (K := numR) t v ->
  exists m : R, aggMin (K := numR) t v = Ok m /\
    (forall p x, leafAt (K := numR) t v p x -> (m <= x)%R) /\
    (~ hasEmpty (K := numR) t v -> exists p, leafAt (K := numR) t v p m) /\
    (hasEmpty (K := numR) t v -> (m <= 0)%R /\ (m = 0%R \/ exists p, leafAt (K := numR) t v p m)).
Proof.
  intros t v W.
  destruct (agg_sel (K := numR) amin Rge Rge_refl Rge_trans amin_ge
             ltac:(intros x y; unfold amin; destruct (ngtb (n := numR) x y); auto) t v W) as (m & E & H1 & H2 & H3).
  exists m. splits; auto.
  - intros p x L. apply Rge_le. exact (H1 p x L).
  - intros NE. destruct H3 as [H|(H & _)]; [auto|contradiction].
  - intros HE. split; [exact (Rge_le _ _ (H2 HE))|]. destruct H3 as [H|(_ & H)]; auto.
Qed.
(** The sum is the sum of all the numbers, each counted once ([ls] lists the places of the value with the
    numbers there, every place once). *)
Theorem C52_sum : forall (t : aty) (v : aval R), wt (K := numR) t v ->
  exists (m : R) (ls : list (list nat * R)), aggSum (K := numR) t v = Ok m /\
    NoDup (map fst ls) /\ (forall p x, In (p, x) ls <-> leafAt (K := numR) t v p x) /\
    m = fold_right Rplus 0%R (map snd ls).
Proof.
  intros t v W.
  destruct (agg_sum (K := numR) (fun x y z => eq_sym (Rplus_assoc x y z)) Rplus_0_l Rplus_0_r t v W)
    as (m & ls & E & (ND & I) & S).
  exists m, ls. splits; auto.
Qed.

(** A class with a number, a Vertex<2> and a vector of numbers. *)
Definition exAgg := AClass [AReal; AVec 2; AArr AReal] [0; 1; 2].
Lemma exAgg_wt (x a b : R) (l : list R) : wt (K := numR) exAgg (VObj [VNum x; VVec [a; b]; VArr (map VNum l)]).
Proof.
  unfold exAgg. constructor; auto; try discriminate.
  - repeat constructor; simpl; intuition discriminate.
  - simpl. intros i H. intuition lia.
  - intros i t v [<-|[<-|[<-|[]]]] E1 E2; injection E1 as <-; injection E2 as <-.
    + constructor.
    + apply (W_vec (K := numR) [a; b]).
    + constructor. intros k v E. rewrite nth_error_map in E. destruct (nth_error l k); [|discriminate].
      injection E as <-. constructor.
Qed.
Example C52_instance :
  aggSum (K := numR) exAgg (VObj [VNum 1%R; VVec [2; 3]%R; VArr [VNum 4%R; VNum 5%R]]) = Ok (1 + (2 + 3) + (4 + 5))%R /\
  ~ hasEmpty (K := numR) exAgg (VObj [VNum 1%R; VVec [2; 3]%R; VArr [VNum 4%R; VNum 5%R]]).
Proof.
  split; [reflexivity|]. intros H. inversion H as [| | |? ? ? i t v Hi E1 E2 He]; subst.
  destruct Hi as [<-|[<-|[<-|[]]]]; injection E1 as <-; injection E2 as <-; inversion He; subst.
  match goal with H : nth_error _ _ = Some _, H2 : hasEmpty _ _ |- _ => rename H into Q; rename H2 into Q2 end.
  inversion Q2.
Qed.
(** Finding: with an empty container the maximum of negative numbers is 0, above all of them. *)
Theorem C52_finding_empty : forall x : R, (x < 0)%R ->
  let v := VObj [VNum x; VVec [x; x]; VArr []] in
  wt (K := numR) exAgg v /\ aggMax (K := numR) exAgg v = Ok 0%R /\
  forall p y, leafAt (K := numR) exAgg v p y -> (y < 0)%R.
Proof.
  intros x N v. splits.
  - exact (exAgg_wt x x x []).
  - unfold aggMax, v, exAgg. cbn [agg mapM map nth_error bind aggList fold_left]. f_equal.
    refine (eq_trans (amax_lt _ _ _) eq_refl). pose proof (amax_same x) as Q. rewrite !Q. exact N.
  - intros p y L. unfold v, exAgg in L. inversion L as [| | |? ? ? i t w q ? Hi E1 E2 L']; subst.
    destruct Hi as [<-|[<-|[<-|[]]]]; injection E1 as <-; injection E2 as <-; inversion L'; subst; auto.
    + match goal with H : nth_error _ ?k = Some _ |- _ => destruct k as [|[|k]]; [injection H as <-; auto|injection H as <-; auto|] end.
      match goal with H : nth_error _ (S (S ?k)) = Some _ |- _ => destruct k; discriminate end.
    + match goal with H : nth_error [] ?k = Some _ |- _ => destruct k; discriminate end.
Qed.

Print Assumptions C52_max.
Print Assumptions C52_min.
Print Assumptions C52_sum.

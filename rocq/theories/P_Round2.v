(** The geometric functions with rounding, next to the exact ones. *)
From Coq Require Import Reals Lra Psatz.
From Verif Require Import P_Base M_Conn M_Index M_Mesh M_Apply S_Mesh P_Apply M_Vec S_Vec P_Vec M_Geom S_Geom P_Geom M_Round S_Round P_Round.
Local Open Scope R_scope.

(** * Two runs of the same program *)
Inductive orel {A B} (P : A -> B -> Prop) : outcome A -> outcome B -> Prop :=
| or_ok a b : P a b -> orel P (Ok a) (Ok b) | or_throw : orel P Throw Throw | or_ub : orel P UB UB | or_div : orel P Diverge Diverge.
Lemma orel_bind {A B A' B'} (P : A -> B -> Prop) (Q : A' -> B' -> Prop) x y f g :
  orel P x y -> (forall a b, P a b -> orel Q (f a) (g b)) -> orel Q (bind x f) (bind y g).
Proof. intros D H. destruct D; cbn [bind]; [apply H; assumption|constructor..]. Qed.
Lemma orel_same {A} (o : outcome A) : orel eq o o. Proof. destruct o; constructor; reflexivity. Qed.
Lemma orel_mono {A B} (P Q : A -> B -> Prop) x y : (forall a b, P a b -> Q a b) -> orel P x y -> orel Q x y.
Proof. intros H D. destruct D; constructor; auto. Qed.
Lemma orel_mapM {A B B'} (P : B -> B' -> Prop) f g (l : list A) : (forall a, In a l -> orel P (f a) (g a)) -> orel (Forall2 P) (mapM f l) (mapM g l).
Proof.
  induction l as [|a l IH]; intros H; cbn [mapM]; [constructor; constructor|].
  apply (orel_bind P); [apply H; left; reflexivity|]. intros b b' Hb. apply (orel_bind (Forall2 P)); [apply IH; intros; apply H; right; assumption|].
  intros bs bs' Hbs. constructor. constructor; assumption.
Qed.
Lemma orel_ok {A B} (P : A -> B -> Prop) x b : orel P x (Ok b) -> exists a, x = Ok a /\ P a b.
Proof. intros H. inversion H; subst. eauto. Qed.
Lemma orel_vat {A B} (P : A -> B -> Prop) l l' i : Forall2 P l l' -> orel P (vat l i) (vat l' i).
Proof.
  intros H. pose proof (Forall2_length' _ _ _ H) as L. unfold vat. rewrite L. destruct (i <? N.of_nat (length l'))%N; [|constructor].
  apply Forall2_nth in H as [_ H]. destruct (nth_error l (N.to_nat i)) as [a|] eqn:E, (nth_error l' (N.to_nat i)) as [b|] eqn:E'.
  - constructor. eapply H; eassumption.
  - apply nth_error_None in E'. assert (N.to_nat i < length l)%nat by (apply nth_error_Some; congruence). lia.
  - apply nth_error_None in E. assert (N.to_nat i < length l')%nat by (apply nth_error_Some; congruence). lia.
  - constructor.
Qed.

Ltac nf := unfold vec in *; repeat match goal with |- context [num (numFl ?r)] => change (num (numFl r)) with R in * end; change (num numR) with R in *.

Section Vec.
Variable rnd : R -> R.
Variable u : R.
Hypothesis HR : rounds rnd u.
Local Notation fl := (numFl rnd).
Local Notation near := (near u).
Local Notation close := (close u).

Lemma diff_near (p q : list R) : Forall2 (near 1) (vsub (K := fl) p q) (diff p q).
Proof.
  revert q. induction p as [|x p IH]; intros [|y q]; try constructor.
  - exact (near_rnd rnd u HR (x - y)).
  - apply IH.
Qed.
Lemma fold_near j (l' l : list R) : Forall2 (near j) l' l -> Forall (fun x => 0 <= x) l -> forall i a' a, (j <= i)%nat -> 0 <= a -> near i a' a ->
  near (i + length l) (fold_left (nadd (n := fl)) l' a') (a + Rsum l).
Proof.
  induction 1 as [|x' x l' l Hx HF IH]; intros HP i a' a L Pa Ha.
  - cbn [fold_left length Rsum]. rewrite Nat.add_0_r, Rplus_0_r. exact Ha.
  - apply Forall_cons_iff in HP as [Px HP]. cbn [fold_left length Rsum].
    replace (i + S (length l))%nat with (S i + length l)%nat by lia. replace (a + (x + Rsum l)) with ((a + x) + Rsum l) by ring.
    apply IH; [exact HP|lia|lra|]. cbn [nadd numFl]. apply (near_rnd_of rnd u HR). apply (near_add rnd u HR); try assumption. apply (near_mono rnd u HR j); assumption.
Qed.
Lemma squares_near k (v' v : list R) : Forall2 (near k) v' v -> Forall2 (near (S (k + k))) (zip (K := fl) (nmul (n := fl)) v' v') (map (fun x => x * x) v).
Proof.
  induction 1 as [|x' x v' v Hx HF IH]; cbn [zip map]; constructor; [|exact IH]. cbn [nmul numFl]. apply (near_rnd_of rnd u HR). apply (near_mul rnd u HR); assumption.
Qed.
Lemma squares_sum (v : list R) : sprod v v = Rsum (map (fun x => x * x) v).
Proof. induction v as [|x v IH]; [reflexivity|]. cbn [sprod map Rsum]. rewrite <- IH. reflexivity. Qed.
Lemma squares_nonneg (v : list R) : Forall (fun x => 0 <= x) (map (fun x => x * x) v).
Proof. induction v; constructor; [nra|assumption]. Qed.
Lemma Rsum_nonneg (l : list R) : Forall (fun x => 0 <= x) l -> 0 <= Rsum l.
Proof. induction 1; cbn [Rsum]; lra. Qed.
Lemma sumsq_near k (v' v : list R) : Forall2 (near k) v' v -> near (k + k + length v) (sumOfSquares (K := fl) v') (sprod v v).
Proof.
  intros H. rewrite squares_sum. unfold sumOfSquares, dot. destruct H as [|x' x v' v Hx HF].
  - cbn [Rsum map]. apply (near_refl rnd u HR).
  - cbn [zip map Rsum length]. replace (k + k + S (length v))%nat with (S (k + k) + length (map (fun x => (x * x)%R) v))%nat by (rewrite map_length; lia).
    apply (fold_near (S (k + k))); [apply squares_near; exact HF|apply squares_nonneg|lia|nra|]. cbn [nmul numFl]. apply (near_rnd_of rnd u HR). apply (near_mul rnd u HR); assumption.
Qed.
Lemma sprod_nonneg (v : list R) : 0 <= sprod v v.
Proof. rewrite squares_sum. apply Rsum_nonneg, squares_nonneg. Qed.
(** [hn k n]: roundings in the norm of a vector of [n] coordinates, each with [k] roundings. *)
Definition hn (k n : nat) : nat := S (k + Nat.div2 (S n)).
Lemma norm_near k (v' v : list R) : Forall2 (near k) v' v -> near (hn k (length v)) (normEuclid (K := fl) v') (sqrt (sprod v v)).
Proof.
  intros H. unfold normEuclid, hn. cbn [nsqrt numFl]. apply (near_rnd_of rnd u HR). apply (near_sqrt rnd u HR); [apply sprod_nonneg|].
  apply (near_mono rnd u HR (k + k + length v)); [|apply sumsq_near; exact H]. pose proof (Nat.div2_odd (S (length v))) as D. destruct (Nat.odd (S (length v))); cbn [Nat.b2n] in D; lia.
Qed.
Lemma diff_length (p q : list R) : length p = length q -> length (diff p q) = length p.
Proof. revert q. induction p as [|x p IH]; intros [|y q] L; try discriminate; [reflexivity|]. cbn [diff length] in *. rewrite IH; congruence. Qed.
Lemma dist_near (p q : list R) d : length p = d -> length q = d -> near (hn 1 d) (normEuclid (K := fl) (vsub (K := fl) p q)) (dist p q).
Proof. intros Lp Lq. pose proof (norm_near 1 _ _ (diff_near p q)) as H. rewrite diff_length in H by congruence. rewrite Lp in H. exact H. Qed.

(** * Edges *)
Definition pts_of (m : Mesh (list R)) (e : N) : outcome (list R * list R) := edge_pts (K := numR) m e.
Lemma edge_pts_same (m : Mesh (list R)) e : edge_pts (K := fl) m e = edge_pts (K := numR) m e.
Proof. reflexivity. Qed.

(** * Triangles *)
Lemma two_near : near 1 (two (K := fl)) 2.
Proof. unfold two. cbn [nadd none_ numFl]. replace 2 with (1 + 1) by ring. apply near_rnd; exact HR. Qed.
Lemma half_near : near 2 (half (K := fl)) (/ 2).
Proof. unfold half. cbn [ndiv none_ numFl]. apply (near_rnd_of rnd u HR). replace (/ 2) with (1 / 2) by field. apply (near_div rnd u HR 0 1); [apply (near_refl rnd u HR)|apply two_near]. Qed.
(** The magnitude of the two products whose difference is twice the area of a triangle. *)
Definition mag2 (c a b : list R) : R := Rabs ((px c - px a) * (py b - py a)) + Rabs ((py c - py a) * (px b - px a)).
Lemma sub_near x y : near 1 (nsub (n := fl) x y) (x - y). Proof. exact (near_rnd rnd u HR (x - y)). Qed.
Lemma prod_near x y z w : near 3 (nmul (n := fl) (nsub (n := fl) x y) (nsub (n := fl) z w)) ((x - y) * (z - w)).
Proof. cbn [nmul numFl]. apply (near_rnd_of rnd u HR). apply (near_mul rnd u HR 1 1); apply sub_near. Qed.
Lemma near_close' k x' x : near k x' x -> close k (Rabs x) x' x.
Proof. intros H. apply (near_close rnd u HR); [lra|exact H]. Qed.
Lemma triangle2_close (c a b : list R) : close 7 (mag2 c a b / 2) (triangle2 (K := fl) c a b) (Rabs (area2 c a b) / 2).
Proof.
  assert (H1 : close 4 (mag2 c a b) 
    (nsub (n := fl) (nmul (n := fl) (nsub (n := fl) (px c) (px a)) (nsub (n := fl) (py b) (py a))) (nmul (n := fl) (nsub (n := fl) (py c) (py a)) (nsub (n := fl) (px b) (px a))))
    (- area2 c a b)).
  { replace (- area2 c a b) with ((px c - px a) * (py b - py a) - (py c - py a) * (px b - px a)) by (unfold area2, det2; ring).
    refine (close_rnd rnd u HR _ _ _ _ _). apply (close_sub u); apply near_close'; apply prod_near. }
  apply (close_abs u) in H1. rewrite Rabs_Ropp in H1. refine (close_rnd rnd u HR _ _ _ _ _).
  pose proof (close_mul_near rnd u HR 4 2 _ _ _ _ _ H1 half_near) as H2. rewrite (Rabs_right (/ 2)) in H2 by lra.
  match type of H2 with close _ _ (?a * ?b) _ => rewrite (Rmult_comm a b) in H2 end. exact H2.
Qed.
(** Sums. *)
Lemma fold_close j (l' l bs : list R) : Forall2 (fun x' xb => close j (snd xb) x' (fst xb)) l' (combine l bs) -> length l = length bs -> forall i b0 a' a, (j <= i)%nat -> close i b0 a' a ->
  close (i + length l) (b0 + Rsum bs) (fold_left (nadd (n := fl)) l' a') (a + Rsum l).
Proof.
  revert l' bs. induction l as [|x l IH]; intros l' [|b bs] H L i b0 a' a Li Ha; try discriminate; cbn [combine] in H; inversion H as [|x' y l1 l2 Hx HF]; subst; cbn [fold_left length Rsum].
  - rewrite Nat.add_0_r, !Rplus_0_r. exact Ha.
  - replace (i + S (length l))%nat with (S i + length l)%nat by lia. replace (a + (x + Rsum l)) with ((a + x) + Rsum l) by ring. replace (b0 + (b + Rsum bs)) with ((b0 + b) + Rsum bs) by ring.
    apply IH; [exact HF|injection L; auto|lia|]. cbn [nadd numFl]. apply (close_rnd rnd u HR). apply (close_add u); [exact Ha|].
    cbn [fst snd] in Hx. apply (close_mono rnd u HR j i b b); [exact Li|lra|exact Hx].
Qed.
End Vec.

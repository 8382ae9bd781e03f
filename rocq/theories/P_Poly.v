(** Lemmas about polygons: pairs of consecutive vertices, rotation, reflection. *)
From Coq Require Import Permutation.
From Verif Require Import P_Base M_FPMA S_FPMA.

Lemma nth_error_combine {A B} (l : list A) (l' : list B) i a b :
  nth_error (combine l l') i = Some (a, b) <-> nth_error l i = Some a /\ nth_error l' i = Some b.
Proof.
  revert l' i; induction l as [|x l IH]; intros [|y l'] [|i]; simpl;
    try (split; [discriminate|intros [? ?]; discriminate]).
  - split; [intros H; inv H; auto|intros [H1 H2]; inv H1; inv H2; reflexivity].
  - apply IH.
Qed.

Lemma cyc_pairs_length vs : length (cyc_pairs vs) = length vs.
Proof.
  destruct vs as [|v r]; [reflexivity|]. unfold cyc_pairs. rewrite combine_length, app_length.
  cbn [length]. lia.
Qed.

Lemma cyc_pairs_nth vs i a b : nth_error (cyc_pairs vs) i = Some (a, b) <-> side vs i a b.
Proof.
  unfold side. destruct vs as [|v r].
  { simpl. destruct i; simpl; split; try discriminate; intros [? ?]; discriminate. }
  unfold cyc_pairs. rewrite nth_error_combine. split; intros [H1 H2]; (split; [assumption|]).
  - assert (Hi : i < length (v :: r)) by (apply nth_error_Some; congruence).
    destruct (Nat.eq_dec (S i) (length (v :: r))) as [E|E].
    + rewrite E, Nat.mod_same by (simpl; lia). simpl in E |- *.
      rewrite nth_error_app2 in H2 by lia. replace (i - length r) with 0 in H2 by lia. assumption.
    + rewrite Nat.mod_small by lia. simpl in Hi, E |- *. rewrite nth_error_app1 in H2 by lia. assumption.
  - assert (Hi : i < length (v :: r)) by (apply nth_error_Some; congruence).
    destruct (Nat.eq_dec (S i) (length (v :: r))) as [E|E].
    + rewrite E, Nat.mod_same in H2 by (simpl; lia). simpl in E, H2 |- *.
      rewrite nth_error_app2 by lia. replace (i - length r) with 0 by lia. assumption.
    + rewrite Nat.mod_small in H2 by lia. simpl in Hi, E, H2 |- *. rewrite nth_error_app1 by lia. assumption.
Qed.

Lemma sides_of_iff edges es vs :
  sides_of edges es vs <-> Forall2 (fun e ab => joins edges e (fst ab) (snd ab)) es (cyc_pairs vs).
Proof.
  rewrite Forall2_nth, cyc_pairs_length. unfold sides_of. split; intros [H1 H2]; (split; [assumption|]).
  - intros i e [a b] He Hp. apply cyc_pairs_nth in Hp. eapply H2; eassumption.
  - intros i e a b He Hs. apply cyc_pairs_nth in Hs. apply (H2 i e (a, b) He Hs).
Qed.

Lemma joins_sym edges e a b : joins edges e a b -> joins edges e b a.
Proof. unfold joins. tauto. Qed.

Lemma joins_mono edges more e a b : joins edges e a b -> joins (edges ++ more) e a b.
Proof.
  unfold joins. intros [H|H]; [left|right]; rewrite nth_error_app1;
    try assumption; apply nth_error_Some; congruence.
Qed.

Lemma joins_lt edges e a b : joins edges e a b -> N.to_nat e < length edges.
Proof. intros [H|H]; apply nth_error_Some; congruence. Qed.

Lemma joins_det edges e a b c d :
  joins edges e a b -> joins edges e c d -> (a = c /\ b = d) \/ (a = d /\ b = c).
Proof.
  intros [H|H] [H'|H']; rewrite H in H'; inv H'; auto.
Qed.

(** * Rotation by one *)
Definition rot1 {A} (l : list A) : list A := match l with [] => [] | a :: r => r ++ [a] end.

Lemma rot1_length {A} (l : list A) : length (rot1 l) = length l.
Proof. destruct l; [reflexivity|]. simpl. rewrite app_length. simpl. lia. Qed.

Lemma combine_app {A B} (l1 l2 : list A) (k1 k2 : list B) :
  length l1 = length k1 -> combine (l1 ++ l2) (k1 ++ k2) = combine l1 k1 ++ combine l2 k2.
Proof.
  revert k1; induction l1 as [|a l1 IH]; intros [|b k1] H; simpl in *; try discriminate; [reflexivity|].
  rewrite IH by lia. reflexivity.
Qed.

Lemma cyc_pairs_rot1 vs : cyc_pairs vs = combine vs (rot1 vs).
Proof. destruct vs; reflexivity. Qed.

Lemma combine_rot1 {A B} (l : list A) (k : list B) :
  length l = length k -> combine (rot1 l) (rot1 k) = rot1 (combine l k).
Proof.
  destruct l as [|a l], k as [|b k]; simpl; intros H; try discriminate; [reflexivity|].
  rewrite combine_app by lia. reflexivity.
Qed.

Lemma Forall2_rot1 {A B} (R : A -> B -> Prop) l k : Forall2 R l k -> Forall2 R (rot1 l) (rot1 k).
Proof. destruct 1; simpl; [constructor|]. apply Forall2_app; [assumption|]. constructor; auto. Qed.

Lemma cycle_rot1 edges es vs :
  sides_of edges es vs -> sides_of edges (rot1 es) (rot1 vs).
Proof.
  rewrite !sides_of_iff, !cyc_pairs_rot1. intros H.
  rewrite combine_rot1 by (rewrite rot1_length; reflexivity). apply Forall2_rot1. assumption.
Qed.

Lemma cycle_rot edges es1 : forall es2 vs,
  sides_of edges (es1 ++ es2) vs ->
  exists vs1 vs2, vs = vs1 ++ vs2 /\ sides_of edges (es2 ++ es1) (vs2 ++ vs1) /\
                  length vs1 = length es1.
Proof.
  induction es1 as [|e es1 IH]; intros es2 vs H.
  - exists [], vs. rewrite app_nil_r in *. simpl in *. rewrite app_nil_r. auto.
  - pose proof (cycle_rot1 _ _ _ H) as H1. simpl in H1. rewrite <- app_assoc in H1.
    apply IH in H1 as (vs1 & vs2 & E & H1 & HL).
    destruct vs as [|v vs]; [destruct H as [H _]; discriminate|].
    simpl in E.
    assert (HH : length (vs2 ++ vs1) = length ((es2 ++ [e]) ++ es1)) by (destruct H1; lia).
    rewrite !app_length in HH. simpl in HH.
    destruct (@exists_last _ vs2) as (w & x & ->); [intros ->; simpl in HH; lia|].
    rewrite app_assoc in E. apply app_inj_tail in E as [-> ->].
    exists (x :: vs1), w. split; [reflexivity|]. split; [|simpl; lia].
    rewrite <- !app_assoc in H1. assumption.
Qed.

(** * Reflection *)
Definition swap {A} (p : A * A) : A * A := (snd p, fst p).

Lemma combine_rev {A B} (l : list A) (k : list B) :
  length l = length k -> combine (rev l) (rev k) = rev (combine l k).
Proof.
  revert k; induction l as [|a l IH]; intros [|b k] H; simpl in *; try discriminate; [reflexivity|].
  rewrite combine_app by (rewrite !rev_length; lia). rewrite IH by lia. reflexivity.
Qed.

Lemma combine_swap {A} (l k : list A) : combine k l = map swap (combine l k).
Proof.
  revert k; induction l as [|a l IH]; intros [|b k]; simpl; try reflexivity. rewrite IH. reflexivity.
Qed.

Lemma Forall2_rev {A B} (R : A -> B -> Prop) l k : Forall2 R l k -> Forall2 R (rev l) (rev k).
Proof.
  induction 1; simpl; [constructor|]. apply Forall2_app; [assumption|]. constructor; auto.
Qed.

Lemma Forall2_map_r {A B C} (R : A -> C -> Prop) (f : B -> C) l k :
  Forall2 R l (map f k) <-> Forall2 (fun a b => R a (f b)) l k.
Proof.
  revert k; induction l as [|a l IH]; intros [|b k]; simpl; split; intros H; inversion H; subst;
    try constructor; auto; apply IH; assumption.
Qed.

Lemma Forall2_map_l {A B C} (R : C -> B -> Prop) (f : A -> C) l k :
  Forall2 R (map f l) k <-> Forall2 (fun a b => R (f a) b) l k.
Proof.
  revert k; induction l as [|a l IH]; intros [|b k]; simpl; split; intros H; inversion H; subst;
    try constructor; auto; apply IH; assumption.
Qed.

Lemma cycle_reflect edges es a r :
  sides_of edges es (a :: r) -> sides_of edges (rev es) (a :: rev r).
Proof.
  rewrite !sides_of_iff. unfold cyc_pairs. intros H.
  assert (E : combine (a :: rev r) (rev r ++ [a]) = map swap (rev (combine (a :: r) (r ++ [a])))).
  { rewrite <- combine_rev by (simpl; rewrite app_length; simpl; lia).
    rewrite combine_swap. f_equal. simpl rev. rewrite rev_app_distr. reflexivity. }
  rewrite E, Forall2_map_r. apply Forall2_rev in H. eapply Forall2_mono; [|exact H].
  intros x y. simpl. apply joins_sym.
Qed.

(** same_polygon is closed under the moves used *)
Lemma same_polygon_refl vs : same_polygon vs vs.
Proof. exists [], vs. rewrite app_nil_r. auto. Qed.

Lemma same_polygon_rot l1 l2 : same_polygon (l1 ++ l2) (l2 ++ l1).
Proof. exists l1, l2. auto. Qed.

Lemma same_polygon_perm vs vs' : same_polygon vs vs' -> Permutation vs vs'.
Proof.
  intros (l1 & l2 & -> & [->| ->]).
  - apply Permutation_app_comm.
  - rewrite <- Permutation_rev. apply Permutation_app_comm.
Qed.

Lemma polygon_perm vs vs' : Permutation vs vs' -> polygon vs -> polygon vs'.
Proof.
  intros P [H1 H2]. split; [eapply Permutation_NoDup; eassumption|].
  rewrite <- (Permutation_length P). assumption.
Qed.

(** Lemmas about [Base]. *)
From Coq Require Export Permutation Sorted.
From Coq Require Export ZifyBool ZifyNat ZifyN.
From Verif Require Export Base.

Global Arguments N.eqb : simpl never.
Global Arguments N.ltb : simpl never.
Global Arguments N.leb : simpl never.
Global Arguments INVALID : simpl never.

Ltac inv H := inversion H; subst; clear H.
Ltac splits := repeat match goal with |- _ /\ _ => split end.

Lemma bind_ok {A B} (x : outcome A) (f : A -> outcome B) b :
  bind x f = Ok b <-> exists a, x = Ok a /\ f a = Ok b.
Proof.
  split.
  - destruct x; simpl; intro H; try discriminate. eauto.
  - intros (a & -> & H). exact H.
Qed.

Lemma mapM_ok {A B} (f : A -> outcome B) l bs :
  mapM f l = Ok bs <-> Forall2 (fun a b => f a = Ok b) l bs.
Proof.
  revert bs; induction l as [|a l IH]; intros bs; simpl.
  - split; intro H; [inv H; constructor | inv H; reflexivity].
  - rewrite bind_ok. split.
    + intros (b & Hb & H). apply bind_ok in H as (bs' & H1 & H2). inv H2.
      constructor; [assumption | apply IH; assumption].
    + intros H. inv H. exists y. split; [assumption|].
      apply bind_ok. eexists; split; [apply IH; eassumption | reflexivity].
Qed.

Lemma mapM_map {A B C} (g : A -> B) (f : B -> outcome C) l :
  mapM f (map g l) = mapM (fun a => f (g a)) l.
Proof. induction l as [|a l IH]; simpl; [reflexivity|]. rewrite IH; reflexivity. Qed.

Lemma mapM_ext {A B} (f g : A -> outcome B) l :
  (forall a, In a l -> f a = g a) -> mapM f l = mapM g l.
Proof.
  induction l as [|a l IH]; intros H; simpl; [reflexivity|].
  rewrite H by (left; reflexivity). rewrite IH; [reflexivity|].
  intros; apply H; right; assumption.
Qed.

Lemma mapM_total {A B} (f : A -> outcome B) (g : A -> B) l :
  (forall a, In a l -> f a = Ok (g a)) -> mapM f l = Ok (map g l).
Proof.
  induction l as [|a l IH]; intros H; simpl; [reflexivity|].
  rewrite H by (left; reflexivity). simpl.
  rewrite IH by (intros; apply H; right; assumption). reflexivity.
Qed.

Lemma foldM_app {A S} (f : S -> A -> outcome S) l1 l2 s :
  foldM f (l1 ++ l2) s = (s' <- foldM f l1 s ;; foldM f l2 s').
Proof.
  revert s; induction l1 as [|a l IH]; intros s; simpl; [reflexivity|].
  destruct (f s a); simpl; auto.
Qed.

Lemma foldM_inv {A S} (f : S -> A -> outcome S) (P : S -> Prop) l s :
  P s -> (forall s a s', In a l -> P s -> f s a = Ok s' -> P s') ->
  forall s', foldM f l s = Ok s' -> P s'.
Proof.
  revert s; induction l as [|a l IH]; intros s Hs Hstep s'; simpl.
  - intros H; inv H; assumption.
  - intros H. apply bind_ok in H as (s1 & H1 & H2).
    eapply IH; [| |exact H2].
    + eapply Hstep; [left; reflexivity | exact Hs | exact H1].
    + intros; eapply Hstep; [right|..]; eassumption.
Qed.

Lemma nth_error_ext {A} (l1 l2 : list A) :
  (forall i, nth_error l1 i = nth_error l2 i) -> l1 = l2.
Proof.
  revert l2; induction l1 as [|a l IH]; intros [|b l2] H; try reflexivity.
  - specialize (H 0); discriminate.
  - specialize (H 0); discriminate.
  - f_equal.
    + specialize (H 0); simpl in H; congruence.
    + apply IH. intros i. specialize (H (S i)); exact H.
Qed.

Lemma vat_ok {A} (l : list A) i a :
  vat l i = Ok a <-> nth_error l (N.to_nat i) = Some a.
Proof.
  unfold vat. destruct (i <? N.of_nat (length l))%N eqn:E.
  - destruct (nth_error l (N.to_nat i)); split; intro H; inv H; reflexivity.
  - split; intro H; [discriminate|].
    assert (N.to_nat i < length l) by (apply nth_error_Some; congruence). lia.
Qed.

Lemma vat_throw {A} (l : list A) i :
  vat l i = Throw <-> (N.of_nat (length l) <= i)%N.
Proof.
  unfold vat. destruct (i <? N.of_nat (length l))%N eqn:E.
  - destruct (nth_error l (N.to_nat i)) eqn:E2; split; intro H; try discriminate; try lia.
    apply nth_error_None in E2. lia.
  - split; intro H; [lia | reflexivity].
Qed.

Lemma vat_cases {A} (l : list A) i :
  (exists a, vat l i = Ok a) \/ vat l i = Throw.
Proof.
  unfold vat. destruct (i <? N.of_nat (length l))%N; [|right; reflexivity].
  destruct (nth_error l (N.to_nat i)); [left; eauto | right; reflexivity].
Qed.

Lemma vat_lt {A} (l : list A) i :
  (i < N.of_nat (length l))%N -> exists a, vat l i = Ok a.
Proof.
  intros H. destruct (vat_cases l i) as [?|E]; [assumption|].
  apply vat_throw in E. lia.
Qed.

Lemma vat_ok_lt {A} (l : list A) i a : vat l i = Ok a -> (i < N.of_nat (length l))%N.
Proof.
  intros H. apply vat_ok in H.
  assert (N.to_nat i < length l) by (apply nth_error_Some; congruence). lia.
Qed.

Lemma vidx_ok {A} (l : list A) i a :
  vidx l i = Ok a <-> nth_error l (N.to_nat i) = Some a.
Proof.
  unfold vidx. destruct (i <? N.of_nat (length l))%N eqn:E.
  - destruct (nth_error l (N.to_nat i)); split; intro H; inv H; reflexivity.
  - split; intro H; [discriminate|].
    assert (N.to_nat i < length l) by (apply nth_error_Some; congruence). lia.
Qed.

Lemma upd_length {A} (l : list A) i a : length (upd l i a) = length l.
Proof. revert i; induction l as [|x l IH]; intros [|i]; simpl; auto. Qed.

Lemma nth_error_upd_eq {A} (l : list A) i a :
  i < length l -> nth_error (upd l i a) i = Some a.
Proof.
  revert i; induction l as [|x l IH]; intros [|i]; simpl; intros H; try lia; auto.
  apply IH; lia.
Qed.

Lemma nth_error_upd_neq {A} (l : list A) i j a :
  i <> j -> nth_error (upd l i a) j = nth_error l j.
Proof.
  revert i j; induction l as [|x l IH]; intros [|i] [|j] H; simpl; auto; try congruence.
Qed.

Lemma upd_oob {A} (l : list A) i a : length l <= i -> upd l i a = l.
Proof.
  revert i; induction l as [|x l IH]; intros [|i] H; simpl in *; auto; try lia.
  f_equal; apply IH; lia.
Qed.

Lemma nth_error_upd {A} (l : list A) i j a :
  nth_error (upd l i a) j =
  if (i =? j) then (if i <? length l then Some a else None) else nth_error l j.
Proof.
  destruct (Nat.eqb_spec i j) as [->|Hn].
  - destruct (Nat.ltb_spec j (length l)).
    + apply nth_error_upd_eq; assumption.
    + apply nth_error_None. rewrite upd_length; lia.
  - apply nth_error_upd_neq; assumption.
Qed.

Lemma upd_app_mid {A} (l : list A) x r a : upd (l ++ x :: r) (length l) a = l ++ a :: r.
Proof. induction l as [|y l IH]; simpl; [reflexivity|]. f_equal; exact IH. Qed.

Lemma vset_ok {A} (l : list A) i a l' :
  vset l i a = Ok l' <-> (i < N.of_nat (length l))%N /\ l' = upd l (N.to_nat i) a.
Proof.
  unfold vset. destruct (i <? N.of_nat (length l))%N eqn:E.
  - split; [intros H; inv H; split; [lia|reflexivity] | intros [_ ->]; reflexivity].
  - split; [discriminate | intros [H _]; lia].
Qed.

Lemma seqN_length n : length (seqN n) = n.
Proof. unfold seqN. rewrite map_length, seq_length. reflexivity. Qed.

Lemma in_seqN n i : In i (seqN n) <-> (i < N.of_nat n)%N.
Proof.
  unfold seqN. rewrite in_map_iff. split.
  - intros (k & <- & Hk). apply in_seq in Hk. lia.
  - intros H. exists (N.to_nat i). split; [lia|]. apply in_seq. lia.
Qed.

Lemma nth_error_seqN n k : k < n -> nth_error (seqN n) k = Some (N.of_nat k).
Proof.
  intros H. unfold seqN. rewrite nth_error_map.
  assert (Hs : nth_error (seq 0 n) k = Some k).
  { rewrite (nth_error_nth' _ 0) by (rewrite seq_length; lia). rewrite seq_nth by lia. reflexivity. }
  rewrite Hs. reflexivity.
Qed.

Lemma NoDup_seqN n : NoDup (seqN n).
Proof.
  unfold seqN. apply FinFun.Injective_map_NoDup; [|apply seq_NoDup].
  intros a b H. lia.
Qed.

Lemma seqN_S n : seqN (S n) = seqN n ++ [N.of_nat n].
Proof. unfold seqN. rewrite seq_S, map_app. reflexivity. Qed.

(** ** first_occ *)
Lemma existsb_Neqb a l : existsb (N.eqb a) l = true <-> In a l.
Proof.
  rewrite existsb_exists. split.
  - intros (x & Hx & E). apply N.eqb_eq in E. subst; assumption.
  - intros H. exists a. split; [assumption | apply N.eqb_refl].
Qed.

Lemma in_first_occ_aux seen l x :
  In x (first_occ_aux seen l) <-> In x l /\ ~ In x seen.
Proof.
  revert seen; induction l as [|a l IH]; intros seen; simpl; [tauto|].
  destruct (existsb (N.eqb a) seen) eqn:E.
  - apply existsb_Neqb in E. rewrite IH. intuition (subst; tauto).
  - assert (Hn : ~ In a seen) by (intro Hc; apply existsb_Neqb in Hc; congruence).
    simpl. rewrite IH. simpl. split.
    + intros [->|[H1 H2]]; [tauto|]. split; [tauto|]. tauto.
    + intros [[->|H1] H2]; [tauto|].
      destruct (N.eq_dec a x); [left; assumption | right]. tauto.
Qed.

Lemma in_first_occ l x : In x (first_occ l) <-> In x l.
Proof. unfold first_occ. rewrite in_first_occ_aux. simpl; tauto. Qed.

Lemma NoDup_first_occ_aux seen l : NoDup (first_occ_aux seen l).
Proof.
  revert seen; induction l as [|a l IH]; intros seen; simpl; [constructor|].
  destruct (existsb (N.eqb a) seen); [apply IH|].
  constructor; [|apply IH]. rewrite in_first_occ_aux. simpl; tauto.
Qed.

Lemma NoDup_first_occ l : NoDup (first_occ l).
Proof. apply NoDup_first_occ_aux. Qed.

Lemma first_occ_aux_app seen l1 l2 :
  first_occ_aux seen (l1 ++ l2) =
  first_occ_aux seen l1 ++ first_occ_aux (rev (first_occ_aux seen l1) ++ seen) l2.
Proof.
  revert seen; induction l1 as [|a l IH]; intros seen; simpl; [reflexivity|].
  destruct (existsb (N.eqb a) seen); [apply IH|].
  simpl. rewrite IH, <- app_assoc. reflexivity.
Qed.

Lemma first_occ_aux_ext s1 s2 l :
  (forall x, In x s1 <-> In x s2) -> first_occ_aux s1 l = first_occ_aux s2 l.
Proof.
  revert s1 s2; induction l as [|a l IH]; intros s1 s2 H; simpl; [reflexivity|].
  assert (E : existsb (N.eqb a) s1 = existsb (N.eqb a) s2).
  { apply eq_iff_eq_true. rewrite !existsb_Neqb. apply H. }
  rewrite E. destruct (existsb (N.eqb a) s2); [apply IH; assumption|].
  f_equal. apply IH. intros x; simpl. rewrite H. tauto.
Qed.

Lemma first_occ_snoc l a :
  first_occ (l ++ [a]) =
  if existsb (N.eqb a) l then first_occ l else first_occ l ++ [a].
Proof.
  unfold first_occ. rewrite first_occ_aux_app. simpl.
  assert (E : existsb (N.eqb a) (rev (first_occ_aux [] l) ++ []) = existsb (N.eqb a) l).
  { apply eq_iff_eq_true. rewrite !existsb_Neqb, app_nil_r, <- in_rev.
    rewrite in_first_occ_aux. simpl; tauto. }
  rewrite E. destruct (existsb (N.eqb a) l); [apply app_nil_r | reflexivity].
Qed.

Lemma first_occ_NoDup l : NoDup l -> first_occ l = l.
Proof.
  intros H. induction l as [|a l IH] using rev_ind; [reflexivity|].
  rewrite first_occ_snoc. apply NoDup_remove in H as [H1 H2]. rewrite app_nil_r in *.
  destruct (existsb (N.eqb a) l) eqn:E.
  - apply existsb_Neqb in E. contradiction.
  - rewrite IH by assumption. reflexivity.
Qed.

(** ** Lists *)
Lemma Forall2_nth {A B} (R : A -> B -> Prop) l1 l2 :
  Forall2 R l1 l2 <->
  length l1 = length l2 /\
  forall i a b, nth_error l1 i = Some a -> nth_error l2 i = Some b -> R a b.
Proof.
  split.
  - induction 1 as [|a b l1 l2 H HF [IH1 IH2]]; simpl.
    + split; [reflexivity|]. intros [|i]; discriminate.
    + split; [lia|]. intros [|i] x y; simpl; intros Hx Hy; [congruence|]. eapply IH2; eassumption.
  - revert l2; induction l1 as [|a l1 IH]; intros [|b l2] [HL H]; simpl in HL; try lia; constructor.
    + apply (H 0); reflexivity.
    + apply IH. split; [lia|]. intros i x y Hx Hy. apply (H (S i)); assumption.
Qed.

Lemma Forall2_length' {A B} (R : A -> B -> Prop) l1 l2 : Forall2 R l1 l2 -> length l1 = length l2.
Proof. induction 1; simpl; lia. Qed.

Lemma NoDup_app_iff {A} (l1 l2 : list A) :
  NoDup (l1 ++ l2) <-> NoDup l1 /\ NoDup l2 /\ (forall x, In x l1 -> ~ In x l2).
Proof.
  induction l1 as [|a l1 IH]; simpl.
  - split; [intros H; repeat split; [constructor|assumption|tauto] | tauto].
  - split.
    + intros H. inv H. apply IH in H3 as (H4 & H5 & H6). rewrite in_app_iff in H2.
      repeat split; [constructor; tauto | assumption |].
      intros x [->|Hx]; [tauto | apply H6; assumption].
    + intros (H1 & H2 & H3). inv H1. constructor.
      * rewrite in_app_iff. intros [?|?]; [contradiction|]. apply (H3 a); auto.
      * apply IH. repeat split; try assumption. intros x Hx; apply H3; auto.
Qed.

Lemma NoDup_firstn {A} n (l : list A) : NoDup l -> NoDup (firstn n l).
Proof.
  intros H. rewrite <- (firstn_skipn n l) in H. apply NoDup_app_iff in H. tauto.
Qed.

Lemma Forall2_mono {A B} (P Q : A -> B -> Prop) l l' :
  (forall a b, P a b -> Q a b) -> Forall2 P l l' -> Forall2 Q l l'.
Proof. intros H. induction 1; constructor; auto. Qed.

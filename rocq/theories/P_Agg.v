From Coq Require Import Reals Lra Lia.
From Verif Require Import Base P_Base M_Vec M_Traits S_Traits P_Traits.

Section G.
Context {K : Num}.
Local Notation RR := (num K).
Local Notation val := (aval RR).

Lemma lt_eq k a b : k < a -> a = b -> k < b.
Proof. intros; subst; auto. Qed.

(** An operator that returns one of its arguments, above both for [le]. *)
Section Sel.
Variables (op : RR -> RR -> RR) (le : RR -> RR -> Prop).
Hypothesis le_refl : forall x, le x x.
Hypothesis le_trans : forall x y z, le x y -> le y z -> le x z.
Hypothesis op_le : forall x y, le x (op x y) /\ le y (op x y).
Hypothesis op_in : forall x y, op x y = x \/ op x y = y.

Lemma fold_sel l : forall x, let m := fold_left op l x in
  le x m /\ (forall y, In y l -> le y m) /\ (m = x \/ In m l).
Proof using op_in op_le le_refl le_trans.
  induction l as [|a l IH]; intros x; simpl.
  - splits; auto. intros y [].
  - destruct (IH (op x a)) as (H1 & H2 & H3). destruct (op_le x a) as (P & Q). splits.
    + eauto.
    + intros y [<-|Hy]; eauto.
    + destruct H3 as [E|E]; [|auto]. rewrite E. destruct (op_in x a) as [-> | ->]; auto.
Qed.

Definition aggSpec (t : aty) (v : val) (m : RR) : Prop :=
  (forall p x, leafAt  t v p x -> le x m) /\
  (hasEmpty  t v -> le (@nzero K) m) /\
  ((exists p, leafAt  t v p m) \/ (hasEmpty  t v /\ m = @nzero K)).

Lemma mapM_agg t (l : list val) :
  (forall k v, nth_error l k = Some v -> exists m, agg  op t v = Ok m /\ aggSpec t v m) ->
  exists xs, mapM (agg  op t) l = Ok xs /\ Forall2 (aggSpec t) l xs.
Proof.
  induction l as [|v l IH]; intros H; cbn [mapM].
  - exists []. split; [reflexivity|constructor].
  - destruct (H 0 v eq_refl) as (m & Em & Sm).
    destruct IH as (xs & Ex & Fx). { intros k w E. apply (H (S k) w E). }
    rewrite Em. cbn [bind]. rewrite Ex. cbn [bind]. exists (m :: xs). split; [reflexivity|constructor; auto].
Qed.

Lemma agg_sel t v : wt  t v -> exists m, agg  op t v = Ok m /\ aggSpec t v m.
Proof using op_in op_le le_refl le_trans.
  induction 1 as [x|l|t l _ IH|slots tr l L ND NE B _ IH].
  - exists x. split; [reflexivity|]. unfold aggSpec; splits.
    + intros p y Ly. apply leaf_num_inv in Ly. destruct Ly as (_ & Q). injection Q as <-. auto.
    + intros E. inversion E.
    + left. exists []. constructor.
  - exists (aggList  op l). split; [reflexivity|].
    destruct l as [|x l]; simpl.
    + unfold aggSpec; splits.
      * intros p y Ly. apply leaf_vec_inv in Ly. destruct Ly as (k & l' & _ & Q & E). injection Q as <-.
        destruct k; discriminate.
      * auto.
      * right. split; [constructor|reflexivity].
    + destruct (fold_sel l x) as (H1 & H2 & H3). unfold aggSpec; splits.
      * intros p y Ly. apply leaf_vec_inv in Ly. destruct Ly as (k & l' & _ & Q & E). injection Q as <-.
        apply nth_error_In in E. destruct E as [<-|E]; auto.
      * intros E. inversion E.
      * left. destruct H3 as [E|E].
        -- exists [0]. constructor. simpl. f_equal. symmetry. exact E.
        -- apply In_nth_error in E. destruct E as (k & E). exists [S k]. constructor. exact E.
  - destruct (mapM_agg t l) as (xs & Ex & Fx); [exact IH|].
    exists (aggList  op xs). split; [cbn [agg]; refine (eq_trans (f_equal (fun o => bind o _) Ex) _); reflexivity|].
    assert (LL := Forall2_length' _ _ _ Fx).
    assert (G : forall k v, nth_error l k = Some v -> exists m, nth_error xs k = Some m /\ aggSpec t v m).
    { intros k v E. destruct (slot_some xs k) as (m & Em).
      { refine (lt_eq _ _ _ _ LL). apply nth_error_Some. congruence. }
      exists m. split; auto. eapply (proj2 (proj1 (Forall2_nth _ _ _) Fx)); eauto. }
    destruct l as [|v0 l]; destruct xs as [|x0 xs]; try (simpl in LL; lia).
    + unfold aggSpec; splits.
      * intros p y Ly. apply leaf_arr_inv in Ly. destruct Ly as (i & v & q & -> & E & _). destruct i; discriminate.
      * intros _. apply le_refl.
      * right. split; [constructor|reflexivity].
    + change (aggList  op (x0 :: xs)) with (fold_left op xs x0).
      destruct (fold_sel xs x0) as (H1 & H2 & H3). set (m := fold_left op xs x0) in *.
      assert (UP : forall k y, nth_error (x0 :: xs) k = Some y -> le y m).
      { intros k y E. apply nth_error_In in E. destruct E as [<-|E]; auto. }
      unfold aggSpec; splits.
      * intros p y Ly. apply leaf_arr_inv in Ly. destruct Ly as (i & v & q & -> & E & Ly).
        destruct (G i v E) as (mv & Em & S1 & _). eauto.
      * intros E. inversion E; subst.
        match goal with H : nth_error _ _ = Some ?v |- _ => destruct (G _ v H) as (mv & Em & _ & S2 & _) end. eauto.
      * assert (IN : exists k, nth_error (x0 :: xs) k = Some m).
        { destruct H3 as [E|E]; [exists 0; simpl; f_equal; symmetry; exact E|].
          apply In_nth_error in E. destruct E as (k & E). exists (S k). exact E. }
        destruct IN as (k & Ek).
        destruct (slot_some (v0 :: l) k) as (v & Ev). { refine (lt_eq _ _ _ _ (eq_sym LL)). apply nth_error_Some. congruence. }
        destruct (G k v Ev) as (mv & Em & _ & _ & S3). rewrite Ek in Em. injection Em as <-.
        destruct S3 as [(p & Lp)|(He & E0)].
        -- left. exists (k :: p). econstructor; eauto.
        -- right. split; auto. econstructor; eauto.
  - assert (EX : exists xs, mapM (fun i => match nth_error (map (agg  op) slots) i, nth_error l i with
                                           | Some f, Some x => f x | _, _ => UB end) tr = Ok xs /\
                 Forall2 (fun i m => exists t v, nth_error slots i = Some t /\ nth_error l i = Some v /\ aggSpec t v m) tr xs).
    { assert (BB : forall i, In i tr -> exists t v m, nth_error slots i = Some t /\ nth_error l i = Some v /\
                     agg  op t v = Ok m /\ aggSpec t v m).
      { intros i Hi. destruct (slot_some slots i (B i Hi)) as (t & Et).
        destruct (slot_some l i) as (v & Ev); [rewrite L; auto|].
        destruct (IH i t v Hi Et Ev) as (m & Em & Sm). eauto 10. }
      clear -BB. induction tr as [|i tr IHt]; [exists []; split; [reflexivity|constructor]|].
      destruct (BB i (or_introl eq_refl)) as (t & v & m & Et & Ev & Em & Sm).
      destruct IHt as (xs & Ex & Fx); [intros; apply BB; now right|].
      exists (m :: xs). split.
      - cbn [mapM]. rewrite (nth_error_map' (agg  op) slots i t Et), Ev, Em. cbn [bind].
        rewrite Ex. reflexivity.
      - constructor; eauto. }
    destruct EX as (xs & Ex & Fx).
    assert (LL := Forall2_length' _ _ _ Fx).
    destruct tr as [|i0 tr]; [congruence|]. destruct xs as [|x0 xs]; [simpl in LL; lia|].
    exists (fold_left op xs x0). split; [cbn [agg]; refine (eq_trans (f_equal (fun o => bind o _) Ex) _); reflexivity|].
    destruct (fold_sel xs x0) as (H1 & H2 & H3). set (m := fold_left op xs x0) in *.
    assert (G : forall i, In i (i0 :: tr) -> exists t v mv, nth_error slots i = Some t /\ nth_error l i = Some v /\
                 aggSpec t v mv /\ le mv m).
    { intros i Hi. apply In_nth_error in Hi. destruct Hi as (k & Ek).
      destruct (slot_some (x0 :: xs) k) as (mv & Emv). { refine (lt_eq _ _ _ _ LL). apply nth_error_Some. congruence. }
      destruct (proj2 (proj1 (Forall2_nth _ _ _) Fx) _ _ _ Ek Emv) as (t & v & Et & Ev & Sm).
      exists t, v, mv. splits; auto. apply nth_error_In in Emv. destruct Emv as [<-|Q]; auto. }
    unfold aggSpec; splits.
    + intros p y Ly. apply leaf_obj_inv in Ly. destruct Ly as (i & t & v & q & -> & Hi & Et & Ev & Ly).
      destruct (G i Hi) as (t' & v' & mv & Et' & Ev' & (S1 & _) & Le).
      rewrite Et in Et'. injection Et' as <-. rewrite Ev in Ev'. injection Ev' as <-. eauto.
    + intros E. inversion E as [| | |? ? ? i t v Hi Et Ev He]; subst.
      destruct (G i Hi) as (t' & v' & mv & Et' & Ev' & (_ & S2 & _) & Le).
      rewrite Et in Et'. injection Et' as <-. rewrite Ev in Ev'. injection Ev' as <-. eauto.
    + assert (IN : exists k, nth_error (x0 :: xs) k = Some m).
      { destruct H3 as [E|E]; [exists 0; simpl; f_equal; symmetry; exact E|].
        apply In_nth_error in E. destruct E as (k & E). exists (S k). exact E. }
      destruct IN as (k & Ek).
      destruct (slot_some (i0 :: tr) k) as (i & Ei). { refine (lt_eq _ _ _ _ (eq_sym LL)). apply nth_error_Some. congruence. }
      destruct (proj2 (proj1 (Forall2_nth _ _ _) Fx) _ _ _ Ei Ek) as (t & v & Et & Ev & _ & _ & S3).
      apply nth_error_In in Ei.
      destruct S3 as [(p & Lp)|(He & E0)].
      * left. exists (i :: p). econstructor; eauto.
      * right. split; auto. econstructor; eauto.
Qed.
End Sel.

(** * Sums *)
Section Sum.
Hypothesis add_assoc : forall x y z : RR, nadd x (nadd y z) = nadd (nadd x y) z.
Hypothesis add_0_l : forall x : RR, nadd nzero x = x.
Hypothesis add_0_r : forall x : RR, nadd x nzero = x.
Fixpoint rsum (l : list RR) : RR := match l with [] => nzero | x :: r => nadd x (rsum r) end.
Lemma rsum_app a b : rsum (a ++ b) = nadd (rsum a) (rsum b).
Proof using add_assoc add_0_l. induction a; simpl; [now rewrite add_0_l|]. rewrite IHa. apply add_assoc. Qed.
Lemma fold_rsum l : forall x, fold_left (@nadd K) l x = nadd x (rsum l).
Proof using add_assoc add_0_r. induction l as [|a l IH]; intros x; simpl; [now rewrite add_0_r|]. rewrite IH. symmetry. apply add_assoc. Qed.
Lemma aggList_rsum l : aggList (@nadd K) l = rsum l.
Proof using add_assoc add_0_r. destruct l; simpl; [reflexivity|]. apply fold_rsum. Qed.

Definition enum (t : aty) (v : val) (ls : list (list nat * RR)) : Prop :=
  NoDup (map fst ls) /\ forall p x, In (p, x) ls <-> leafAt  t v p x.

Lemma nodup_app' {A} (a b : list A) : NoDup a -> NoDup b -> (forall x, In x a -> ~ In x b) -> NoDup (a ++ b).
Proof.
  induction a as [|x a IH]; intros Ha Hb D; simpl; auto.
  inversion Ha; subst. constructor.
  - rewrite in_app_iff. intros [|]; [auto|]. apply (D x); simpl; auto.
  - apply IH; auto. intros y Hy. apply D. now right.
Qed.
Lemma nodup_cons_map (i : nat) (l : list (list nat)) : NoDup l -> NoDup (map (cons i) l).
Proof. apply FinFun.Injective_map_NoDup. intros a b E. now injection E. Qed.

Lemma items_sum (items : list (nat * (aty * val))) :
  NoDup (map fst items) ->
  (forall i t v, In (i, (t, v)) items -> exists m ls, agg  (@nadd K) t v = Ok m /\ enum t v ls /\ m = rsum (map snd ls)) ->
  exists xs ls, mapM (fun it => agg  (@nadd K) (fst (snd it)) (snd (snd it))) items = Ok xs /\
    NoDup (map fst ls) /\
    (forall p x, In (p, x) ls <-> exists i t v q, p = i :: q /\ In (i, (t, v)) items /\ leafAt  t v q x) /\
    rsum xs = rsum (map snd ls).
Proof.
  induction items as [|[i [t v]] items IH]; intros ND H.
  - exists [], []. splits; [reflexivity|constructor| |reflexivity].
    intros p x. split; [intros []|intros (i & t & v & q & _ & [] & _)].
  - simpl in ND. inversion ND as [|? ? NI ND']; subst.
    destruct (H i t v (or_introl eq_refl)) as (m & ls & Em & (NDl & Il) & Sm).
    destruct IH as (xs & ls2 & Ex & ND2 & I2 & S2); auto. { intros. apply (H i0). now right. }
    exists (m :: xs), (map (fun e => (i :: fst e, snd e)) ls ++ ls2). splits.
    + cbn [mapM fst snd]. rewrite Em. cbn [bind]. rewrite Ex. reflexivity.
    + rewrite map_app, map_map. apply nodup_app'; auto.
      * change (fun x : list nat * RR => fst (i :: fst x, snd x)) with (fun x : list nat * RR => i :: fst x).
        rewrite <- (map_map fst (cons i)). now apply nodup_cons_map.
      * intros p Hp Hp2. apply in_map_iff in Hp. destruct Hp as ((q & y) & <- & _). simpl in Hp2.
        apply in_map_iff in Hp2. destruct Hp2 as ((p & x) & E & Hx). simpl in E.
        apply I2 in Hx. destruct Hx as (j & t' & v' & q' & -> & Hj & _). injection E as -> ->.
        apply NI. change i with (fst (i, (t', v'))). now apply in_map.
    + intros p x. rewrite in_app_iff. split.
      * intros [Hx|Hx].
        -- apply in_map_iff in Hx. destruct Hx as ((q & y) & E & Hq). simpl in E. injection E as <- <-.
           exists i, t, v, q. splits; auto; [now left|]. now apply Il.
        -- apply I2 in Hx. destruct Hx as (j & t' & v' & q & -> & Hj & Lq). exists j, t', v', q. splits; auto. now right.
      * intros (j & t' & v' & q & -> & [E|Hj] & Lq).
        -- injection E as <- <- <-. left. apply in_map_iff. exists (q, x). split; auto. now apply Il.
        -- right. apply I2. eauto 8.
    + simpl. rewrite map_app, map_map, rsum_app. simpl. rewrite S2, Sm. reflexivity.
Qed.

Lemma mapM_map_id {A B C} (f : B -> outcome C) (g : A -> B) l : mapM f (map g l) = mapM (fun x => f (g x)) l.
Proof. induction l as [|a l IH]; simpl; [reflexivity|]. now rewrite IH. Qed.

Lemma agg_sum t v : wt  t v ->
  exists m ls, agg  (@nadd K) t v = Ok m /\ enum t v ls /\ m = rsum (map snd ls).
Proof.
  induction 1 as [x|l|t l _ IH|slots tr l L ND NE B _ IH].
  - exists x, [([], x)]. splits; [reflexivity| |simpl; now rewrite add_0_r]. split; [repeat constructor; auto|].
    intros p y. split.
    + intros [E|[]]. injection E as <- <-. constructor.
    + intros Ly. apply leaf_num_inv in Ly. destruct Ly as (-> & Q). injection Q as ->. now left.
  - set (ls := combine (map (fun k => [k]) (seq 0 (length l))) l).
    assert (LL : length (map (fun k : nat => [k]) (seq 0 (length l))) = length l) by now rewrite map_length, seq_length.
    exists (aggList  (@nadd K) l), ls. splits; [reflexivity| |].
    + split.
      * unfold ls. replace (map fst (combine _ l)) with (map (fun k => [k]) (seq 0 (length l))).
        -- apply FinFun.Injective_map_NoDup; [intros a b E; now injection E|apply seq_NoDup].
        -- symmetry. clear -LL. revert LL. generalize (map (fun k : nat => [k]) (seq 0 (length l))). intros a.
           revert l. induction a as [|x a IH]; intros [|y l] E; simpl in *; auto; try lia. rewrite IH; auto.
      * intros p x. split.
        -- intros Hx. apply In_nth_error in Hx. destruct Hx as (k & Hk).
           unfold ls in Hk.
           assert (Lk : k < length l).
           { assert (k < length (combine (map (fun k => [k]) (seq 0 (length l))) l)) by (apply nth_error_Some; congruence).
             rewrite combine_length, LL in H. lia. }
           destruct (slot_some l k Lk) as (y & Ey).
           assert (E1 : nth_error (map (fun k : nat => [k]) (seq 0 (length l))) k = Some [k]).
           { rewrite nth_error_map. rewrite (nth_error_nth' (seq 0 (length l)) 0) by now rewrite seq_length.
             rewrite seq_nth by auto. reflexivity. }
           assert (E2 : forall (a : list (list nat)) (b : list RR) k x y, nth_error a k = Some x -> nth_error b k = Some y ->
                        nth_error (combine a b) k = Some (x, y)).
           { clear. induction a as [|x a IH]; intros [|y b] [|k] u w A B; simpl in *; try discriminate; auto; congruence. }
           rewrite (E2 _ _ _ _ _ E1 Ey) in Hk. injection Hk as <- <-. constructor. exact Ey.
        -- intros Lx. apply leaf_vec_inv in Lx. destruct Lx as (k & l' & -> & Q & E). injection Q as <-.
           assert (Lk : k < length l) by (apply nth_error_Some; congruence).
           assert (E1 : nth_error (map (fun k : nat => [k]) (seq 0 (length l))) k = Some [k]).
           { rewrite nth_error_map. rewrite (nth_error_nth' (seq 0 (length l)) 0) by now rewrite seq_length.
             rewrite seq_nth by auto. reflexivity. }
           assert (E2 : forall (a : list (list nat)) (b : list RR) k x y, nth_error a k = Some x -> nth_error b k = Some y ->
                        nth_error (combine a b) k = Some (x, y)).
           { clear. induction a as [|u a IH]; intros [|y b] [|k] u' w A B; simpl in *; try discriminate; auto; congruence. }
           apply (nth_error_In _ k). apply E2; auto.
    + rewrite aggList_rsum. unfold ls. f_equal. symmetry. clear -LL. revert LL.
      generalize (map (fun k : nat => [k]) (seq 0 (length l))). intros a.
      revert l. induction a as [|x a IH]; intros [|y l] E; simpl in *; auto; try lia. rewrite IH; auto.
  - set (items := combine (seq 0 (length l)) (map (fun v => (t, v)) l)).
    assert (IN : forall i t' v, In (i, (t', v)) items <-> t' = t /\ nth_error l i = Some v).
    { assert (GEN : forall l k i t' v, In (i, (t', v)) (combine (seq k (length l)) (map (fun v => (t, v)) l)) <->
                     t' = t /\ k <= i /\ nth_error l (i - k) = Some (v : val)).
      { clear. induction l as [|a l IH]; intros k i t' v; simpl.
        - split; [intros []|intros (_ & _ & E); destruct (i - k); discriminate].
        - rewrite IH. split.
          + intros [E|(-> & H & E)].
            * injection E as <- <- <-. splits; auto. rewrite Nat.sub_diag. reflexivity.
            * splits; auto; [lia|]. replace (i - k) with (S (i - S k)) by lia. exact E.
          + intros (-> & H & E). destruct (Nat.eq_dec i k) as [->|N].
            * rewrite Nat.sub_diag in E. injection E as ->. now left.
            * right. splits; auto; [lia|]. replace (i - k) with (S (i - S k)) in E by lia. exact E. }
      intros i t' v. unfold items. rewrite GEN, Nat.sub_0_r. split; [intros (-> & _ & E)|intros (-> & E)]; splits; auto; lia. }
    destruct (items_sum items) as (xs & ls & Ex & NDl & Il & Sl).
    + assert (E : map fst items = seq 0 (length l)).
      { unfold items. generalize (seq 0 (length l)) (seq_length (length l) 0). intros s.
        clear. revert l. induction s as [|k s IH]; intros [|v l] E; simpl in *; auto; try lia. rewrite IH; auto. }
      rewrite E. apply seq_NoDup.
    + intros i t' v Hi. apply IN in Hi. destruct Hi as (-> & E). eauto.
    + exists (rsum (map snd ls)), ls. splits; auto.
      * simpl. assert (E : mapM (agg  (@nadd K) t) l = Ok xs).
        { rewrite <- Ex. unfold items. generalize (seq_length (length l) 0). generalize (seq 0 (length l)).
          clear. intros s. revert l. induction s as [|k s IH]; intros [|v l] E; simpl in *; auto; try lia.
          rewrite (IH l) by lia. reflexivity. }
        rewrite E. cbn [bind]. rewrite aggList_rsum, Sl. reflexivity.
      * split; auto. intros p x. rewrite Il. split.
        -- intros (i & t' & v & q & -> & Hi & Lq). apply IN in Hi. destruct Hi as (-> & E). econstructor; eauto.
        -- intros Lx. apply leaf_arr_inv in Lx. destruct Lx as (i & v & q & -> & E & Lq).
           exists i, t, v, q. splits; auto. apply IN. auto.
  - assert (EX : exists items : list (nat * (aty * val)), map fst items = tr /\
                   forall i t v, In (i, (t, v)) items -> In i tr /\ nth_error slots i = Some t /\ nth_error l i = Some v).
    { clear ND NE IH. induction tr as [|i tr IHt]; [exists []; split; [reflexivity|intros i t v []]|].
      destruct IHt as (items & E & H); [intros; apply B; now right|].
      destruct (slot_some slots i (B i (or_introl eq_refl))) as (t & Et).
      destruct (slot_some l i) as (v & Ev); [rewrite L; apply B; now left|].
      exists ((i, (t, v)) :: items). split; [simpl; now rewrite E|].
      intros j t' v' [Q|Hj].
      - injection Q as <- <- <-. splits; auto. now left.
      - destruct (H j t' v' Hj) as (? & ? & ?). splits; auto. now right. }
    destruct EX as (items & Ei & Hi).
    destruct (items_sum items) as (xs & ls & Ex & NDl & Il & Sl).
    + now rewrite Ei.
    + intros i t v H. destruct (Hi i t v H) as (? & ? & ?). eauto.
    + exists (rsum (map snd ls)), ls.
      assert (E : mapM (fun i => match nth_error (map (agg  (@nadd K)) slots) i, nth_error l i with
                                 | Some f, Some x => f x | _, _ => UB end) tr = Ok xs).
      { rewrite <- Ex, <- Ei, mapM_map_id. apply mapM_ext. intros [i [t v]] H. simpl.
        destruct (Hi i t v H) as (_ & Et & Ev).
        rewrite (nth_error_map' (agg  (@nadd K)) slots i t Et), Ev. reflexivity. }
      splits.
      * simpl agg. rewrite E. cbn [bind]. destruct xs as [|x0 xs].
        -- exfalso. destruct items as [|[i [t v]] items]; [simpl in Ei; congruence|].
           cbn [mapM] in Ex. destruct (agg  (@nadd K) (fst (snd (i, (t, v)))) (snd (snd (i, (t, v))))); try discriminate.
           cbn [bind] in Ex. destruct (mapM _ items); discriminate.
        -- rewrite fold_rsum, <- Sl. reflexivity.
      * split; auto. intros p x. rewrite Il. split.
        -- intros (i & t & v & q & -> & H & Lq). destruct (Hi i t v H) as (? & ? & ?). econstructor; eauto.
        -- intros Lx. apply leaf_obj_inv in Lx. destruct Lx as (i & t & v & q & -> & H & Et & Ev & Lq).
           exists i, t, v, q. splits; auto.
           rewrite <- Ei in H. apply in_map_iff in H. destruct H as ((i' & (t' & v')) & Q & H). simpl in Q. subst i'.
           destruct (Hi i t' v' H) as (_ & Et' & Ev'). congruence.
      * reflexivity.
Qed.
End Sum.
End G.

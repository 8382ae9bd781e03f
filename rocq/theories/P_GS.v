(** Proofs about the Gram-Schmidt process over the reals. *)
From Coq Require Import Reals Lra Psatz.
From Verif Require Import P_Base M_Vec S_Vec P_Vec.
Local Open Scope R_scope.

Lemma Forall_firstn {A} (P : A -> Prop) i l : Forall P l -> Forall P (firstn i l).
Proof. rewrite !Forall_forall. intros H x Hx. apply H. rewrite <- (firstn_skipn i l). apply in_or_app. left. assumption. Qed.

Section GS.
Variable d : nat.
Notation lens := (Forall (fun w : rv => length w = d)).

Record gsinv (pre : list rv) (done : list (rv * R)) : Prop := {
  gi_len : length done = length pre;
  gi_pre : lens pre;
  gi_lens : lens (map fst done);
  gi_k : Forall (fun p => snd p = 1 / sprod (fst p) (fst p)) done;
  gi_ortho : ortho done;
  gi_fwd : forall i p, nth_error done i = Some p -> in_span d (firstn (S i) pre) (fst p);
  gi_back : forall i p v, nth_error done i = Some p -> nth_error pre i = Some v ->
            exists s, in_span d (firstn i (map fst done)) s /\ v = vadd s (fst p)
}.

Lemma gs_coef_sprod done (v : rv) : gs_coef (K := numR) done v = map (fun p => sprod v (fst p) * snd p) done.
Proof. unfold gs_coef. apply map_ext. intros p. rewrite dot_sprod. reflexivity. Qed.

Lemma nth_snoc {A} (l : list A) a i x : nth_error (l ++ [a]) i = Some x ->
  (nth_error l i = Some x /\ (i < length l)%nat) \/ (i = length l /\ x = a).
Proof.
  intros H. destruct (Nat.lt_ge_cases i (length l)) as [Hl|Hl].
  - left. rewrite nth_error_app1 in H by assumption. auto.
  - right. rewrite nth_error_app2 in H by assumption.
    destruct (i - length l)%nat as [|z] eqn:E; simpl in H; [split; [lia|congruence]|].
    destruct z; discriminate.
Qed.

Lemma span_done_pre pre done : gsinv pre done -> forall w, In w (map fst done) -> in_span d pre w.
Proof.
  intros I w Hw. apply in_map_iff in Hw as (p & <- & Hp). apply In_nth_error in Hp as (i & Hi).
  eapply span_mono; [|eapply gi_fwd; eassumption]. intros x Hx. rewrite <- (firstn_skipn (S i) pre).
  apply in_or_app. left. assumption.
Qed.
Lemma lens_snoc l (v : rv) : lens l -> length v = d -> lens (l ++ [v]).
Proof. intros. apply Forall_app. split; [assumption|]. constructor; [assumption|constructor]. Qed.

Definition gs_next (done : list (rv * R)) (v : rv) : rv := gs_subtract (K := numR) (map fst done) (gs_coef (K := numR) done v) v.

Lemma gs_next_length pre done v : gsinv pre done -> length v = d -> length (gs_next done v) = d.
Proof. intros I Hv. apply gs_subtract_length; [apply I|assumption]. Qed.

Lemma gsinv_step pre done v : gsinv pre done -> length v = d -> sprod (gs_next done v) (gs_next done v) <> 0 ->
  gsinv (pre ++ [v]) (done ++ [(gs_next done v, 1 / sprod (gs_next done v) (gs_next done v))]).
Proof.
  intros I Hv Hn. set (v' := gs_next done v) in *.
  assert (Lv' : length v' = d) by (apply (gs_next_length pre); assumption).
  assert (Lp : lens (pre ++ [v])) by (apply lens_snoc; [apply I|assumption]).
  split.
  - rewrite !app_length, (gi_len _ _ I). reflexivity.
  - assumption.
  - rewrite map_app. apply lens_snoc; [apply I|assumption].
  - apply Forall_app. split; [apply I|]. constructor; [reflexivity|constructor].
  - apply ortho_snoc; [apply I| |].
    + intros q Hq. unfold v', gs_next. rewrite gs_coef_sprod. apply (gs_step_ortho d); try assumption.
      * pose proof (gi_lens _ _ I) as HL. rewrite Forall_map in HL. exact HL.
      * apply I.
    + unfold Rdiv. rewrite Rmult_1_l. apply Rinv_l. assumption.
  - intros i p Hp. apply nth_snoc in Hp as [[Hp Hi]|[-> ->]].
    + rewrite firstn_app. eapply span_mono; [|eapply gi_fwd; eassumption]. apply incl_appl, incl_refl.
    + rewrite firstn_all2 by (rewrite app_length, (gi_len _ _ I); simpl; lia). simpl fst.
      apply gs_subtract_span; [assumption| |].
      * intros w Hw. eapply span_mono; [|eapply span_done_pre; eassumption]. apply incl_appl, incl_refl.
      * apply span_in; [apply in_or_app; right; left; reflexivity|assumption].
  - intros i p x Hp Hx. apply nth_snoc in Hp as [[Hp Hi]|[-> ->]].
    + rewrite nth_error_app1 in Hx by (rewrite <- (gi_len _ _ I); assumption).
      destruct (gi_back _ _ I i p x Hp Hx) as (s & Hs & E). exists s. split; [|assumption].
      rewrite map_app, firstn_app. eapply span_mono; [|eassumption]. apply incl_appl, incl_refl.
    + rewrite nth_error_app2 in Hx by (rewrite (gi_len _ _ I); lia).
      rewrite (gi_len _ _ I), Nat.sub_diag in Hx. injection Hx as <-.
      destruct (gs_subtract_back d (map fst done) (gs_coef (K := numR) done v) v) as (s & Hs & E); [apply I|assumption|].
      exists s. split; [|exact E]. rewrite map_app, firstn_app.
      rewrite firstn_all2 by (rewrite map_length; lia).
      eapply span_mono; [|eassumption]. apply incl_appl, incl_refl.
Qed.

(** A vector outside the span of the processed ones is not annihilated. *)
Lemma gs_next_nonzero pre done v : gsinv pre done -> length v = d -> ~ in_span d pre v ->
  sprod (gs_next done v) (gs_next done v) <> 0.
Proof.
  intros I Hv Hs Hz. apply Hs. pose proof (gs_next_length _ _ _ I Hv) as L.
  apply sprod_zero_inv in Hz.
  destruct (gs_subtract_back d (map fst done) (gs_coef (K := numR) done v) v) as (s & Hss & E); [apply I|assumption|].
  fold (gs_next done v) in E. pose proof (span_length _ _ _ Hss) as Ls.
  replace v with s.
  - eapply span_trans; [apply I| |eassumption]. intros w Hw. eapply span_done_pre; eassumption.
  - rewrite E, Hz. apply nth_ext_R.
    + rewrite vadd_length; rewrite ?repeat_length; cc.
    + intros i Hi. unfold vadd. rewrite zip_nth by (rewrite ?repeat_length; ll). rewrite nth_repeat. simpl. ring.
Qed.

Lemma gs_loop_eq done v todo :
  gs_loop (K := numR) done (v :: todo) =
  gs_loop (K := numR) (done ++ [(gs_next done v, 1 / sprod (gs_next done v) (gs_next done v))]) todo.
Proof. cbn [gs_loop]. unfold sumOfSquares. rewrite dot_sprod. reflexivity. Qed.

Lemma gs_loop_indep todo : forall pre done, gsinv pre done -> lens todo -> lin_indep d (pre ++ todo) ->
  gsinv (pre ++ todo) (gs_loop (K := numR) done todo).
Proof.
  induction todo as [|v todo IH]; intros pre done I HF Hli; [rewrite app_nil_r; exact I|].
  apply Forall_cons_iff in HF as [Hv HF]. rewrite gs_loop_eq.
  replace (pre ++ v :: todo) with ((pre ++ [v]) ++ todo) in * by (rewrite <- app_assoc; reflexivity).
  apply IH; [|assumption|assumption]. apply gsinv_step; [assumption|assumption|].
  apply (gs_next_nonzero pre); try assumption.
  specialize (Hli (length pre) v). rewrite <- app_assoc in Hli.
  rewrite nth_error_app2, Nat.sub_diag, firstn_app, Nat.sub_diag in Hli by lia.
  simpl in Hli. rewrite firstn_all, app_nil_r in Hli. apply Hli. reflexivity.
Qed.

Lemma gs_loop_prefix (todo : list rv) : forall done, exists l, gs_loop (K := numR) done todo = done ++ l.
Proof.
  induction todo as [|v todo IH]; intros done; [exists []; simpl; rewrite app_nil_r; reflexivity|].
  rewrite gs_loop_eq.
  destruct (IH (done ++ [(gs_next done v, 1 / sprod (gs_next done v) (gs_next done v))])) as (l & E).
  eexists. etransitivity; [exact E|]. rewrite <- app_assoc. reflexivity.
Qed.
Lemma gs_loop_nonzero todo : forall pre done, gsinv pre done -> lens todo ->
  (forall p, In p (gs_loop (K := numR) done todo) -> sprod (fst p) (fst p) <> 0) ->
  gsinv (pre ++ todo) (gs_loop (K := numR) done todo).
Proof.
  induction todo as [|v todo IH]; intros pre done I HF Hnz; [rewrite app_nil_r; exact I|].
  apply Forall_cons_iff in HF as [Hv HF]. rewrite gs_loop_eq in *.
  replace (pre ++ v :: todo) with ((pre ++ [v]) ++ todo) in * by (rewrite <- app_assoc; reflexivity).
  apply IH; [|assumption|assumption]. apply gsinv_step; [assumption|assumption|].
  destruct (gs_loop_prefix todo (done ++ [(gs_next done v, 1 / sprod (gs_next done v) (gs_next done v))])) as (l & E).
  apply (Hnz (gs_next done v, 1 / sprod (gs_next done v) (gs_next done v))).
  refine (eq_ind_r (fun z => In _ z) _ E).
  apply in_or_app. left. apply in_or_app. right. left. reflexivity.
Qed.

Lemma gsinv_nil : gsinv [] [].
Proof.
  split; try solve [constructor]; try reflexivity.
  - intros i j p q Hp. destruct i; discriminate.
  - intros i p Hp. destruct i; discriminate.
  - intros i p v Hp. destruct i; discriminate.
Qed.

(** gramSchmidt is the loop started with nothing processed *)
Lemma gs_start (v : rv) r : gramSchmidt (K := numR) (v :: r) = Ok (map fst (gs_loop (K := numR) [] (v :: r))).
Proof. reflexivity. Qed.

Lemma gsinv_ortho pre done : gsinv pre done -> orthogonal_family (map fst done).
Proof.
  intros I i j u v Hij Hu Hv. rewrite nth_error_map in Hu, Hv.
  destruct (nth_error done i) as [p|] eqn:Ep; [|discriminate]. destruct (nth_error done j) as [q|] eqn:Eq; [|discriminate].
  injection Hu as <-. injection Hv as <-. apply (gi_ortho _ _ I i j p q Ep Eq). assumption.
Qed.
Lemma gsinv_pos pre done : gsinv pre done -> forall u, In u (map fst done) -> 0 < sprod u u.
Proof.
  intros I u Hu. apply in_map_iff in Hu as (p & <- & Hp). apply In_nth_error in Hp as (i & Hi).
  destruct (gi_ortho _ _ I i i p p Hi Hi) as [_ H]. specialize (H eq_refl).
  pose proof (sprod_nonneg (fst p)). destruct (Req_EM_T (sprod (fst p) (fst p)) 0) as [E|E]; [|lra].
  rewrite E, Rmult_0_r in H. lra.
Qed.
(** The span of the first i inputs is contained in the span of the first i results. *)
Lemma gsinv_span pre done i v : gsinv pre done -> nth_error pre i = Some v ->
  in_span d (firstn (S i) (map fst done)) v.
Proof.
  intros I Hv. assert (Hi : (i < length done)%nat) by (rewrite (gi_len _ _ I); apply nth_error_Some; congruence).
  destruct (nth_error done i) as [p|] eqn:Ep; [|apply nth_error_None in Ep; lia].
  destruct (gi_back _ _ I i p v Ep Hv) as (s & Hs & E). rewrite E.
  assert (Lp : length (fst p) = d) by (eapply span_length, (gi_fwd _ _ I); eassumption).
  replace (fst p) with (vscale (K := numR) (fst p) 1).
  2:{ apply nth_ext_R; [apply vscale_length|]. intros. rewrite vscale_nth. ring. }
  apply span_axpy.
  - eapply Forall_firstn, gi_lens; eassumption.
  - eapply span_mono; [|eassumption]. intros x Hx.
    rewrite <- (firstn_skipn i (firstn (S i) (map fst done))). apply in_or_app. left.
    rewrite firstn_firstn, Nat.min_l by lia. assumption.
  - apply span_in; [|assumption]. apply (nth_error_In _ i).
    assert (nth_error (map fst done) i = Some (fst p)) by (rewrite nth_error_map, Ep; reflexivity).
    revert H. clear. generalize (map fst done). intros l. revert i. induction l as [|a l IH]; intros [|i]; simpl; auto; try discriminate.
    intros H. apply IH in H. assumption.
Qed.
Lemma in_span_orth vs (x u : rv) : in_span d vs x -> (forall w, In w vs -> sprod w u = 0) -> sprod x u = 0.
Proof.
  intros H Hw. induction H as [|x y a w Hy IH Hin Hx]; [apply sprod_zero_l|].
  pose proof Hx as (L1 & L2 & _). rewrite (is_axpy_unique _ _ _ _ Hx).
  rewrite sprod_vadd_l, sprod_vscale_l by (rewrite vscale_length; cc).
  rewrite IH, Hw by assumption. ring.
Qed.
Lemma in_firstn {A} (l : list A) i x : In x (firstn i l) -> exists j, (j < i)%nat /\ nth_error l j = Some x.
Proof.
  revert i. induction l as [|a l IH]; intros [|i]; simpl; try tauto. intros [->|H].
  - exists 0%nat. split; [lia|reflexivity].
  - destruct (IH _ H) as (j & Hj & E). exists (S j). split; [lia|assumption].
Qed.
Lemma gsinv_indep pre done : gsinv pre done -> lin_indep d pre.
Proof.
  intros I i v Hv Hs.
  assert (Hi : (i < length done)%nat) by (rewrite (gi_len _ _ I); apply nth_error_Some; congruence).
  destruct (nth_error done i) as [p|] eqn:Ep; [|apply nth_error_None in Ep; lia].
  assert (Hs2 : in_span d (firstn i (map fst done)) v).
  { eapply span_trans; [eapply Forall_firstn, gi_lens; eassumption| |exact Hs].
    intros w Hw. apply in_firstn in Hw as (j & Hj & Hw).
    eapply span_mono; [|eapply gsinv_span; eassumption]. intros x Hx.
    apply in_firstn in Hx as (k & Hk & Hx).
    assert (G : forall A (l : list A) k i y, (k < i)%nat -> nth_error l k = Some y -> In y (firstn i l)).
    { clear. intros A l. induction l as [|a l IH]; intros [|k] [|i] y; simpl; try discriminate; try lia.
      - intros _ H. left. congruence.
      - intros Hlt H. right. apply (IH k); [lia|assumption]. }
    eapply G; [|eassumption]. lia. }
  destruct (gi_back _ _ I i p v Ep Hv) as (s & Hss & E).
  assert (O : forall w, In w (firstn i (map fst done)) -> sprod w (fst p) = 0).
  { intros w Hw. apply in_firstn in Hw as (j & Hj & Hw).
    apply (gsinv_ortho _ _ I j i); [lia|assumption|]. rewrite nth_error_map, Ep. reflexivity. }
  pose proof (in_span_orth _ _ _ Hs2 O) as H1. pose proof (in_span_orth _ _ _ Hss O) as H2.
  pose proof (span_length _ _ _ Hss). assert (length (fst p) = d) by (eapply span_length, (gi_fwd _ _ I); eassumption).
  rewrite E, sprod_vadd_l in H1 by cc.
  assert (0 < sprod (fst p) (fst p)) by (eapply gsinv_pos; [eassumption|]; apply in_map; eapply nth_error_In; eassumption).
  lra.
Qed.
End GS.

(** * The normalised version is the normalisation of the other one *)
Definition nz (p : rv * R) : rv * R := gsn_one (K := numR) (fst p).

Lemma rescale (w v : rv) :
  vscale (K := numR) (vdiv (K := numR) w (normEuclid (K := numR) w)) (dot (K := numR) v (vdiv (K := numR) w (normEuclid (K := numR) w))) =
  vscale (K := numR) w (sprod v w * (1 / sprod w w)).
Proof.
  rewrite dot_sprod, (sprod_comm v). unfold vdiv at 2. rewrite sprod_vscale_l, (sprod_comm w v).
  apply nth_ext_R; [unfold vdiv; rewrite !vscale_length; reflexivity|]. intros i _.
  unfold vdiv. rewrite !vscale_nth. cbn [ndiv none_ numR].
  destruct (Req_EM_T (normEuclid (K := numR) w) 0) as [E|E].
  - apply norm_zero in E. rewrite E at 1 5. rewrite nth_repeat. ring.
  - assert (sprod w w <> 0) by (rewrite <- norm_sq; intros H; destruct (Rmult_integral _ _ H); auto).
    rewrite <- norm_sq. field. assumption.
Qed.

Lemma gsn_subtract done (v x : rv) : Forall (fun p => snd p = 1 / sprod (fst p) (fst p)) done ->
  gs_subtract (K := numR) (map fst (map nz done)) (map (fun p => dot (K := numR) v (fst p)) (map nz done)) x =
  gs_subtract (K := numR) (map fst done) (map (fun p => sprod v (fst p) * snd p) done) x.
Proof.
  unfold gs_subtract. revert x. induction done as [|[w k] done IH]; intros x HF; [reflexivity|].
  apply Forall_cons_iff in HF as [Hk HF]. simpl in Hk. cbn [map combine fold_left fst snd nz gsn_one].
  rewrite IH by assumption. rewrite rescale, Hk. reflexivity.
Qed.
Lemma gsn_loop_gs todo : forall done, Forall (fun p => snd p = 1 / sprod (fst p) (fst p)) done ->
  gsn_loop (K := numR) (map nz done) todo = map nz (gs_loop (K := numR) done todo).
Proof.
  induction todo as [|v todo IH]; intros done HF; [reflexivity|].
  rewrite gs_loop_eq. rewrite <- IH by (apply Forall_app; split; [assumption|]; constructor; [reflexivity|constructor]).
  cbn [gsn_loop]. f_equal. rewrite map_app. f_equal. cbn [map]. f_equal. unfold nz at 3. simpl fst.
  f_equal. unfold gs_next. rewrite gs_coef_sprod. apply gsn_subtract. assumption.
Qed.
Lemma gsn_start (v : rv) r : gramSchmidtN (K := numR) (v :: r) =
  Ok (map (fun p => fst (nz p)) (gs_loop (K := numR) [] (v :: r)),
      map (fun p => snd (nz p)) (gs_loop (K := numR) [] (v :: r))).
Proof.
  assert (E : gsn_loop (K := numR) [] (v :: r) = map nz (gs_loop (K := numR) [] (v :: r)))
    by (apply (gsn_loop_gs _ []); constructor).
  unfold gramSchmidtN. change (gsn_loop (K := numR) [gsn_one v] r) with (gsn_loop (K := numR) [] (v :: r)).
  rewrite E, !map_map. reflexivity.
Qed.
Lemma nz_unit (w : rv) (k : R) : sprod w w <> 0 -> sprod (fst (nz (w, k))) (fst (nz (w, k))) = 1.
Proof.
  intros H. unfold nz, gsn_one, fst. unfold vdiv. rewrite sprod_vscale_l, sprod_comm, sprod_vscale_l. cbn [ndiv none_ numR].
  assert (normEuclid (K := numR) w <> 0) by (intros E; apply H; rewrite <- norm_sq, E; ring).
  rewrite <- norm_sq. field. assumption.
Qed.

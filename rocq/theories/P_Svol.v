(** Volumes of simplices do not depend on the order of the vertices. *)
From Coq Require Import Reals Lra Psatz Permutation.
From Verif Require Import P_Base M_Conn M_Mesh M_Vec S_Vec P_Vec P_GS S_Geom P_Geom S_GeomN P_Flat.
Local Open Scope R_scope.

Section Svol.
Variable d : nat.
Notation lens := (Forall (fun w : point => length w = d)).

Lemma comb_diff l g y u : is_comb d l g -> length y = d -> length u = d ->
  sprod (diff y g) u = sprod y u - W l (fun p => sprod p u).
Proof. intros C Ly Lu. rewrite sprod_diff_l by (rewrite (proj1 C); assumption). rewrite (comb_sprod d l g u C Lu). reflexivity. Qed.

(** The height over a flat with one more point. *)
Lemma height_more A x y fx fy : lens A -> length x = d -> length y = d -> foot d A x fx -> foot d A y fy ->
  let a := diff x fx in let b := diff y fy in sprod a a <> 0 ->
  height d (A ++ [x]) y (sqrt (sprod b b - sprod a b * sprod a b / sprod a a)).
Proof.
  intros HF Lx Ly Hx Hy a b Ha.
  pose proof (flat_length _ _ _ (proj1 Hx)) as Lfx. pose proof (flat_length _ _ _ (proj1 Hy)) as Lfy.
  assert (La : length a = d) by (unfold a; rewrite diff_length; congruence).
  assert (Lb : length b = d) by (unfold b; rewrite diff_length; congruence).
  set (t := sprod a b / sprod a a).
  destruct (comb_ex d [(1, fy); (t, x); (- t, fx)]) as (g & Cg).
  assert (HFx : lens (A ++ [x])) by (apply Forall_app; split; [assumption|constructor; [assumption|constructor]]).
  assert (Fg : on_flat d (A ++ [x]) g).
  { apply (flat_trans d _ [fy; x; fx]).
    - intros p [<-|[<-|[<-|[]]]].
      + apply (flat_incl d _ A); [assumption|apply incl_appl, incl_refl|apply Hy].
      + apply flat_in; [apply in_or_app; right; left; reflexivity|assumption].
      + apply (flat_incl d _ A); [assumption|apply incl_appl, incl_refl|apply Hx].
    - exists [(1, fy); (t, x); (- t, fx)]. split; [reflexivity|]. split; [simpl; ring|exact Cg]. }
  assert (Lg : length g = d) by apply Cg.
  assert (U : forall v, length v = d -> sprod (diff y g) v = sprod b v - t * sprod a v).
  { intros v Lv. rewrite (comb_diff _ _ _ _ Cg Ly Lv). unfold a, b, W. rewrite !sprod_diff_l by congruence. simpl. ring. }
  assert (Ua : sprod (diff y g) a = 0).
  { rewrite U by assumption. rewrite (sprod_comm b a). unfold t. field. assumption. }
  assert (Uq : forall p, on_flat d A p -> sprod (diff y g) (diff p fy) = 0).
  { intros p Hp. pose proof (flat_length _ _ _ Hp) as Lp. rewrite U by (rewrite diff_length; congruence).
    pose proof (foot_all d A y fy p HF Ly Hy Hp) as E1. pose proof (foot_all d A x fx p HF Lx Hx Hp) as E2.
    pose proof (foot_all d A x fx fy HF Lx Hx (proj1 Hy)) as E3. fold a in E2, E3. fold b in E1.
    rewrite E1. rewrite sprod_diff_r in * by congruence. replace (sprod a p - sprod a fy) with 0 by lra. ring. }
  assert (Ug : sprod (diff y g) (diff g fy) = 0).
  { rewrite sprod_comm. rewrite sprod_diff_l by congruence. rewrite (comb_sprod d _ _ (diff y g) Cg) by (rewrite diff_length; congruence).
    unfold W. cbn [map Rsum fst snd]. unfold a in Ua. rewrite sprod_diff_r in Ua by congruence.
    rewrite !(sprod_comm _ (diff y g)). replace (sprod (diff y g) x) with (sprod (diff y g) fx) by lra. ring. }
  exists g. split.
  - apply foot_intro; try assumption. intros p Hp.
    assert (Lp : length p = d) by (rewrite Forall_forall in HFx; apply HFx; assumption).
    assert (Q : sprod (diff y g) (diff p fy) = 0).
    { apply in_app_or in Hp as [Hp|[<-|[]]].
      - apply Uq. apply flat_in; assumption.
      - pose proof (Uq fx (proj1 Hx)) as E. unfold a in Ua. rewrite sprod_diff_r in * by congruence. lra. }
    rewrite sprod_diff_r in * by congruence. lra.
  - unfold dist. f_equal. rewrite U by (rewrite diff_length; congruence).
    rewrite (sprod_comm b (diff y g)), (sprod_comm a (diff y g)). rewrite !U by assumption. rewrite (sprod_comm b a). unfold t. field. assumption.
Qed.
Lemma foot_pos A x fx : length x = d -> foot d A x fx -> ~ on_flat d A x -> sprod (diff x fx) (diff x fx) <> 0.
Proof.
  intros Lx H Hn E. apply Hn. pose proof (flat_length _ _ _ (proj1 H)).
  rewrite (diff_zero x fx ltac:(congruence) E). apply H.
Qed.
Lemma height_swap A x y hx hyx hy hxy : lens A -> length x = d -> length y = d -> ~ on_flat d A x -> ~ on_flat d A y ->
  height d A x hx -> height d (A ++ [x]) y hyx -> height d A y hy -> height d (A ++ [y]) x hxy -> hx * hyx = hy * hxy.
Proof.
  intros HF Lx Ly Nx Ny (fx & Fx & Ex) Hyx (fy & Fy & Ey) Hxy.
  pose proof (foot_pos _ _ _ Lx Fx Nx) as Px. pose proof (foot_pos _ _ _ Ly Fy Ny) as Py.
  pose proof (height_more A x y fx fy HF Lx Ly Fx Fy Px) as H1. pose proof (height_more A y x fy fx HF Ly Lx Fy Fx Py) as H2.
  cbv zeta in H1, H2. set (a := diff x fx) in *. set (b := diff y fy) in *.
  assert (HFx : lens (A ++ [x])) by (apply Forall_app; split; [assumption|constructor; [assumption|constructor]]).
  assert (HFy : lens (A ++ [y])) by (apply Forall_app; split; [assumption|constructor; [assumption|constructor]]).
  rewrite (height_unique d _ _ _ _ HFx Ly Hyx H1), (height_unique d _ _ _ _ HFy Lx Hxy H2).
  rewrite Ex, Ey. unfold dist. fold a b. rewrite (sprod_comm b a).
  pose proof (sprod_nonneg a). pose proof (sprod_nonneg b). rewrite <- !sqrt_mult_alt by assumption. f_equal. field. tauto.
Qed.

Lemma svol_lens ps V : svol d ps V -> lens ps /\ ps <> [].
Proof.
  induction 1 as [p L|ps V x h H [IH1 IH2] L Hh].
  - split; [constructor; [assumption|constructor]|discriminate].
  - split; [|destruct ps; discriminate]. apply Forall_app. split; [assumption|]. constructor; [assumption|constructor].
Qed.
Lemma svol_inv ps x V : ps <> [] -> svol d (ps ++ [x]) V ->
  exists V0 h, svol d ps V0 /\ length x = d /\ height d ps x h /\ V = V0 * h / INR (length ps).
Proof.
  intros Hne H. remember (ps ++ [x]) as l eqn:E. destruct H as [p L|ps' V0 x' h H L Hh].
  - exfalso. destruct ps as [|? [|? ?]]; try discriminate. congruence.
  - apply app_inj_tail in E as [-> ->]. exists V0, h. auto.
Qed.
Lemma snoc_ne {A} (l : list A) x : l ++ [x] <> [].
Proof. destruct l; discriminate. Qed.
Lemma svol_unique ps V : svol d ps V -> forall V', svol d ps V' -> V = V'.
Proof.
  induction 1 as [p L|ps V x h H IH L Hh]; intros V' H'.
  - remember [p] as l eqn:E. destruct H' as [p' L'|ps V0 x h H _ _]; [reflexivity|]. exfalso.
    apply svol_lens in H as [_ H]. destruct ps as [|? [|? ?]]; try discriminate. congruence.
  - pose proof (svol_lens _ _ H) as [HF Hne]. destruct (svol_inv ps x V' Hne H') as (V0 & h' & H1 & _ & H2 & ->).
    rewrite (IH _ H1). rewrite (height_unique d ps x h h') by assumption. reflexivity.
Qed.
Lemma height_one p x : length p = d -> length x = d -> height d [p] x (dist x p).
Proof.
  intros Lp Lx. exists p. split; [|reflexivity]. split; [apply flat_in; [left; reflexivity|assumption]|].
  intros u v [<-|[]] [<-|[]]. rewrite sprod_diff_r by reflexivity. ring.
Qed.
Lemma svol_two a b : length a = d -> length b = d -> svol d [a; b] (dist a b).
Proof.
  intros La Lb. replace (dist a b) with (1 * dist b a / INR (length [a])) by (simpl; rewrite dist_sym; field).
  apply (sv_cone d [a] 1 b); [constructor; assumption|assumption|apply height_one; assumption].
Qed.

Lemma app_indep A x : lens A -> aff_indep d (A ++ [x]) -> aff_indep d A /\ ~ on_flat d A x.
Proof.
  intros HF H. assert (P : Permutation (A ++ [x]) (x :: A)) by (symmetry; apply Permutation_cons_append).
  apply (aff_indep_perm _ _ _ P) in H. split; [eapply aff_indep_tl|apply aff_indep_off]; eassumption.
Qed.
Lemma off_incl A x y : lens A -> length y = d -> ~ on_flat d (A ++ [y]) x -> ~ on_flat d A x.
Proof.
  intros HF Ly H Hx. apply H. apply (flat_incl d _ A); [|apply incl_appl, incl_refl|assumption].
  apply Forall_app. split; [assumption|]. constructor; [assumption|constructor].
Qed.
Lemma svol_swap A x y V : aff_indep d (A ++ [x; y]) -> svol d (A ++ [x; y]) V -> svol d (A ++ [y; x]) V.
Proof.
  intros HI H. pose proof (svol_lens _ _ H) as [HFa _]. apply Forall_app in HFa as [HF HF'].
  apply Forall_cons_iff in HF' as [Lx HF']. apply Forall_cons_iff in HF' as [Ly _].
  destruct A as [|a0 A0] eqn:EA.
  - cbn in *. rewrite (svol_unique _ _ H _ (svol_two x y Lx Ly)), dist_sym. apply svol_two; assumption.
  - rewrite <- EA in *. assert (Hne : A <> []) by (rewrite EA; discriminate). clear EA.
    replace (A ++ [x; y]) with ((A ++ [x]) ++ [y]) in * by (rewrite <- app_assoc; reflexivity).
    replace (A ++ [y; x]) with ((A ++ [y]) ++ [x]) by (rewrite <- app_assoc; reflexivity).
    destruct (svol_inv _ _ _ (snoc_ne A x) H) as (V1 & h1 & S1 & _ & H1 & ->).
    destruct (svol_inv _ _ _ Hne S1) as (V0 & h0 & S0 & _ & H0 & ->).
    assert (HFx : lens (A ++ [x])) by (apply Forall_app; split; [assumption|constructor; [assumption|constructor]]).
    assert (HFy : lens (A ++ [y])) by (apply Forall_app; split; [assumption|constructor; [assumption|constructor]]).
    destruct (app_indep _ _ HFx HI) as [HIx Ny']. destruct (app_indep _ _ HF HIx) as [HIA Nx].
    pose proof (off_incl _ _ _ HF Lx Ny') as Ny.
    assert (HIy : aff_indep d (A ++ [y])).
    { eapply aff_indep_perm; [apply Permutation_cons_append|]. apply aff_indep_cons; assumption. }
    destruct (foot_exists d A y Hne HF Ly HIA) as (fy & Fy).
    destruct (foot_exists d (A ++ [y]) x (snoc_ne A y) HFy Lx HIy) as (gx & Gx).
    assert (Hy : height d A y (dist y fy)) by (exists fy; auto).
    assert (Hx : height d (A ++ [y]) x (dist x gx)) by (exists gx; auto).
    pose proof (height_swap A x y _ _ _ _ HF Lx Ly Nx Ny H0 H1 Hy Hx) as E.
    pose proof (sv_cone d (A ++ [y]) _ x _ (sv_cone d A V0 y _ S0 Ly Hy) Lx Hx) as R.
    rewrite !app_length in *. cbn [length] in *.
    replace (V0 * h0 / INR (length A) * h1 / INR (length A + 1)) with (V0 * dist y fy / INR (length A) * dist x gx / INR (length A + 1)); [exact R|].
    unfold Rdiv. replace (V0 * h0 * / INR (length A) * h1) with (V0 * (h0 * h1) * / INR (length A)) by ring. rewrite E. ring.
Qed.
Lemma svol_perm n : forall ps ps' V, length ps = n -> Permutation ps ps' -> aff_indep d ps -> svol d ps V -> svol d ps' V.
Proof.
  induction n as [|n IH]; intros ps ps' V Ln P HI H.
  { destruct ps; [|discriminate]. apply svol_lens in H as [_ H]. congruence. }
  pose proof (svol_lens _ _ H) as [HF Hne].
  destruct ps as [|p0 ps0] eqn:E0; [congruence|]. rewrite <- E0 in *. clear E0.
  destruct (exists_last Hne) as (A & x & ->). assert (Hne' : ps' <> []) by (intros ->; symmetry in P; apply Permutation_nil in P; exact (snoc_ne _ _ P)).
  destruct (exists_last Hne') as (B & y & ->).
  rewrite app_length in Ln. cbn in Ln. assert (LA : length A = n) by lia.
  assert (P' : Permutation (x :: A) (y :: B)).
  { etransitivity; [apply Permutation_cons_append|]. etransitivity; [exact P|]. symmetry. apply Permutation_cons_append. }
  assert (LB : length B = n) by (apply Permutation_length in P'; cbn in P'; lia).
  destruct A as [|a0 A0] eqn:EA.
  { destruct B; [|cbn in *; lia]. apply Permutation_length_1_inv in P'. injection P' as ->. exact H. }
  rewrite <- EA in *. assert (HneA : A <> []) by (rewrite EA; discriminate). clear EA.
  apply Forall_app in HF as [HFA HFx]. apply Forall_cons_iff in HFx as [Lx _].
  destruct (app_indep _ _ HFA HI) as [HIA Nx].
  destruct (svol_inv _ _ _ HneA H) as (V0 & h & S0 & _ & Hh & EV).
  assert (Hyin : In y (x :: A)) by (eapply Permutation_in; [symmetry; exact P'|left; reflexivity]).
  destruct (list_eq_dec Req_EM_T x y) as [<-|Nxy].
  - apply Permutation_cons_inv in P'. rewrite EV, LA, <- LB. constructor; [|assumption|].
    + eapply (IH A); eassumption.
    + assert (HFB : lens B) by (eapply Permutation_Forall; eassumption). rewrite Forall_forall in *.
      apply (height_flat d A); try (rewrite Forall_forall); try assumption.
      * intros p Hp. apply flat_in; [eapply Permutation_in; [symmetry; eassumption|assumption]|apply HFB; assumption].
      * intros p Hp. apply flat_in; [eapply Permutation_in; eassumption|apply HFA; assumption].
  - destruct Hyin as [->|Hyin]; [congruence|]. apply in_split in Hyin as (C1 & C2 & EA).
    set (C := C1 ++ C2). assert (PA : Permutation A (C ++ [y])).
    { rewrite EA. unfold C. rewrite <- app_assoc. apply Permutation_app_head. apply Permutation_cons_append. }
    assert (PB : Permutation B (C ++ [x])).
    { apply (Permutation_cons_inv (a := y)). etransitivity; [symmetry; exact P'|].
      etransitivity; [apply perm_skip; exact PA|].
      etransitivity; [apply perm_skip; symmetry; apply Permutation_cons_append|].
      etransitivity; [apply perm_swap|]. apply perm_skip, Permutation_cons_append. }
    assert (HFC : lens (C ++ [y])) by (eapply Permutation_Forall; eassumption).
    assert (HFB : lens B).
    { eapply Permutation_Forall; [symmetry; exact PB|]. apply Forall_app in HFC as [HFC _]. apply Forall_app.
      split; [assumption|]. constructor; [assumption|constructor]. }
    assert (Ly : length y = d) by (apply Forall_app in HFC as [_ HFC]; inversion HFC; assumption).
    assert (SV : svol d (C ++ [y; x]) V).
    { replace (C ++ [y; x]) with ((C ++ [y]) ++ [x]) by (rewrite <- app_assoc; reflexivity).
      rewrite EV. rewrite (Permutation_length PA). constructor; [eapply (IH A); eassumption|assumption|].
      rewrite Forall_forall in *. apply (height_flat d A); try (rewrite Forall_forall); try assumption.
      - intros p Hp. apply flat_in; [eapply Permutation_in; [symmetry; eassumption|assumption]|apply HFC; assumption].
      - intros p Hp. apply flat_in; [eapply Permutation_in; eassumption|apply HFA; assumption]. }
    assert (HIC : aff_indep d (C ++ [y; x])).
    { eapply aff_indep_perm; [|exact HI]. replace (C ++ [y; x]) with ((C ++ [y]) ++ [x]) by (rewrite <- app_assoc; reflexivity).
      apply Permutation_app_tail. assumption. }
    pose proof (svol_swap _ _ _ _ HIC SV) as SV'.
    replace (C ++ [x; y]) with ((C ++ [x]) ++ [y]) in SV' by (rewrite <- app_assoc; reflexivity).
    destruct (svol_inv _ _ _ (snoc_ne _ _) SV') as (V1 & h1 & S1 & _ & Hh1 & ->).
    rewrite <- (Permutation_length PB). constructor; [|assumption|].
    + eapply (IH (C ++ [x])); [rewrite <- (Permutation_length PB); assumption|symmetry; assumption| |assumption].
      apply (app_indep (C ++ [x]) y).
      * eapply Permutation_Forall; [exact PB|assumption].
      * eapply aff_indep_perm; [|exact HIC]. rewrite <- app_assoc. apply Permutation_app_head. apply perm_swap.
    + assert (HFC' : lens (C ++ [x])) by (eapply Permutation_Forall; [exact PB|assumption]).
      rewrite Forall_forall in *. apply (height_flat d (C ++ [x])); try (rewrite Forall_forall); try assumption.
      * intros p Hp. apply flat_in; [eapply Permutation_in; [exact PB|assumption]|apply HFB; assumption].
      * intros p Hp. apply flat_in; [eapply Permutation_in; [symmetry; exact PB|assumption]|apply HFC'; assumption].
Qed.
Lemma svol_exists ps : ps <> [] -> lens ps -> aff_indep d ps -> exists V, svol d ps V /\ 0 < V.
Proof.
  induction ps as [|x ps IH] using rev_ind; intros Hne HF HI; [congruence|].
  apply Forall_app in HF as [HF Lx]. apply Forall_cons_iff in Lx as [Lx _].
  destruct ps as [|p0 r] eqn:E; [exists 1; split; [constructor; assumption|lra]|]. rewrite <- E in *.
  assert (Hn : ps <> []) by (rewrite E; discriminate). destruct (app_indep _ _ HF HI) as [HI' Nx].
  destruct (IH Hn HF HI') as (V & HV & PV). destruct (foot_exists d ps x Hn HF Lx HI') as (q & Hq).
  exists (V * dist x q / INR (length ps)). split; [constructor; [assumption|assumption|exists q; auto]|].
  assert (0 < INR (length ps)) by (apply lt_0_INR; rewrite E; simpl; lia).
  assert (0 < dist x q).
  { unfold dist. apply sqrt_lt_R0. pose proof (foot_pos _ _ _ Lx Hq Nx). pose proof (sprod_nonneg (diff x q)). lra. }
  apply Rmult_lt_0_compat; [apply Rmult_lt_0_compat; assumption|apply Rinv_0_lt_compat; assumption].
Qed.
End Svol.

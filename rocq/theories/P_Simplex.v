(** Proofs for C72: simplices. *)
From Coq Require Import Reals Lra Psatz Permutation.
From Verif Require Import P_Base M_Conn M_Index M_Mesh M_Apply S_Mesh P_Apply M_Vec S_Vec P_Vec P_GS M_Geom S_Geom P_Geom P_Centers
  M_GeomN S_GeomN P_Flat P_Svol P_GeomN.
Local Open Scope R_scope.

Definition mw (a : R) (ps : list point) : list (R * point) := map (fun p => (a, p)) ps.
Lemma mw_snd a ps : map snd (mw a ps) = ps.
Proof. unfold mw. rewrite map_map. apply map_id. Qed.
Lemma mw_W a ps f : W (mw a ps) f = a * Rsum (map f ps).
Proof. unfold W, mw. rewrite map_map. apply (Rsum_scale f a ps). Qed.
Lemma mw_sum a ps : Rsum (map fst (mw a ps)) = a * INR (length ps).
Proof. rewrite W_sum, mw_W, Rsum_const. ring. Qed.

Lemma mean_perm d ps ps' c : Permutation ps ps' -> is_mean d ps c -> is_mean d ps' c.
Proof.
  intros P [L H]. split; [assumption|]. intros i Hi. rewrite H, (Permutation_length P) by assumption. f_equal.
  apply Rsum_perm, Permutation_map. assumption.
Qed.
Lemma mean_flat d ps c : ps <> [] -> is_mean d ps c -> on_flat d ps c.
Proof.
  intros Hne [L H]. assert (N : INR (length ps) <> 0) by (apply not_0_INR; destruct ps; [congruence|simpl; lia]).
  exists (mw (/ INR (length ps)) ps). split; [apply mw_snd|]. split; [rewrite mw_sum; field; assumption|].
  split; [assumption|]. intros i Hi. rewrite H by assumption.
  pose proof (mw_W (/ INR (length ps)) ps (fun p => nth i p 0)) as E. unfold W in E. rewrite E. unfold Rdiv. ring.
Qed.

Section Facet.
Variable d : nat.
Variables (v c : point) (ws : list point).
Hypothesis Hv : length v = d.
Hypothesis Hws : Forall (fun w : point => length w = d) ws.
Hypothesis Hc : is_mean d (v :: ws) c.
Hypothesis Hne : ws <> [].
Let n := INR (length (v :: ws)).

Lemma n_pos : 0 < n.
Proof. unfold n. apply lt_0_INR. simpl. lia. Qed.
Lemma n_ws : n = 1 + INR (length ws).
Proof. unfold n. cbn [length]. rewrite S_INR. ring. Qed.
Lemma mean_eq i : (i < d)%nat -> nth i v 0 = n * nth i c 0 - Rsum (map (fun p => nth i p 0) ws).
Proof.
  intros Hi. pose proof n_pos. rewrite (proj2 Hc i Hi). fold n. cbn [map Rsum]. field. lra.
Qed.
(** The vertex lies on the flat of the centre and the opposite face. *)
Lemma vertex_flat : on_flat d (c :: ws) v.
Proof.
  pose proof n_ws as N. exists ((n, c) :: mw (-1) ws). split; [cbn; rewrite mw_snd; reflexivity|]. split; [|split; [assumption|]].
  - cbn [map Rsum fst]. rewrite mw_sum. rewrite N. ring.
  - intros i Hi. rewrite (mean_eq i Hi). cbn [map Rsum fst snd].
    pose proof (mw_W (-1) ws (fun p => nth i p 0)) as E. unfold W in E. rewrite E. ring.
Qed.
Lemma center_off : ~ on_flat d ws v -> ~ on_flat d ws c.
Proof.
  intros H Hcc. apply H. apply (flat_trans d ws (c :: ws)); [|apply vertex_flat].
  rewrite Forall_forall in Hws. intros p [<-|Hp]; [assumption|]. apply flat_in; auto.
Qed.
(** The centre is as high as the vertex, divided by the number of vertices. *)
Lemma center_height H : height d ws v H -> height d ws c (H / n).
Proof.
  intros (q & Hq & ->). pose proof n_pos as N. pose proof n_ws as N'. pose proof (flat_length _ _ _ (proj1 Hq)) as Lq.
  assert (Lc : length c = d) by apply Hc.
  destruct (comb_ex d [(1, c); (- / n, v); (/ n, q)]) as (g & Cg). assert (Lg : length g = d) by apply Cg.
  assert (Fg : on_flat d ws g).
  { apply (flat_trans d ws (q :: ws)).
    - rewrite Forall_forall in Hws. intros p [<-|Hp]; [apply Hq|]. apply flat_in; auto.
    - exists (mw (/ n) (q :: ws)). split; [apply mw_snd|]. split; [rewrite mw_sum; cbn [length] in *; rewrite S_INR, N'; field; lra|].
      split; [assumption|]. intros i Hi. pose proof (mw_W (/ n) (q :: ws) (fun p => nth i p 0)) as E. unfold W in E. rewrite E.
      rewrite (proj2 Cg i Hi). cbn [map Rsum fst snd]. rewrite (mean_eq i Hi). field. lra. }
  assert (U : forall u, length u = d -> sprod (diff c g) u = / n * sprod (diff v q) u).
  { intros u Lu. rewrite (comb_diff d _ _ _ _ Cg Lc Lu). unfold W. cbn [map Rsum fst snd]. rewrite sprod_diff_l by congruence. ring. }
  exists g. split.
  - split; [assumption|]. intros p p' Hp Hp'. rewrite Forall_forall in Hws.
    rewrite U by (rewrite diff_length; rewrite ?Hws by assumption; congruence).
    rewrite (proj2 Hq p p' Hp Hp'). ring.
  - unfold dist. rewrite U by (rewrite diff_length; congruence). rewrite (sprod_comm (diff v q) (diff c g)), U by (rewrite diff_length; congruence).
    rewrite <- Rmult_assoc. rewrite sqrt_mult_alt by (left; apply Rmult_lt_0_compat; apply Rinv_0_lt_compat; assumption).
    rewrite sqrt_square by (left; apply Rinv_0_lt_compat; assumption). unfold Rdiv. ring.
Qed.
End Facet.

Lemma Forall2_len {A B} (P : A -> B -> Prop) js bs : Forall2 P js bs -> length js = length bs.
Proof. induction 1; simpl; congruence. Qed.
Lemma psum_const {A} (P Q : A -> R -> Prop) (c : R) (js : list A) hs mus : Forall2 P js hs -> Forall2 Q js mus ->
  (forall j h mu, In j js -> P j h -> Q j mu -> h * mu = c) -> psum hs mus = INR (length js) * c.
Proof.
  intros HP. revert mus. induction HP as [|j h js hs Hj HP IH]; intros mus HQ H; inversion HQ as [|? mu ? mus' Hm HQ']; subst.
  - unfold psum. simpl. ring.
  - unfold psum in *. cbn [combine map Rsum fst snd length]. rewrite S_INR.
    rewrite IH by (auto; intros; eapply H; eauto; right; assumption). rewrite (H j h mu (or_introl eq_refl) Hj Hm). ring.
Qed.
Lemma Forall2_join {A B C} (P : A -> B -> Prop) (Q : A -> C -> Prop) js bs cs : Forall2 P js bs -> Forall2 Q js cs ->
  Forall2 (fun b c => exists j, In j js /\ P j b /\ Q j c) bs cs.
Proof.
  intros HP. revert cs. induction HP as [|j b js bs Hj HP IH]; intros cs HQ; inversion HQ as [|? c ? cs' Hc HQ']; subst; constructor.
  - exists j. split; [left; reflexivity|auto].
  - eapply Forall2_mono; [|apply IH; assumption]. intros b' c' (j' & H1 & H2). exists j'. split; [right; assumption|assumption].
Qed.
Lemma Forall2_in_l {A B} (P : A -> B -> Prop) js bs j : Forall2 P js bs -> In j js -> exists b, In b bs /\ P j b.
Proof.
  induction 1 as [|j' b js bs Hj HF IH]; intros Hin; [destruct Hin|].
  destruct Hin as [->|Hin]; [exists b; split; [left; reflexivity|assumption]|].
  destruct IH as (b' & H1 & H2); [assumption|]. exists b'. split; [right; assumption|assumption].
Qed.

Section Simplex.
Variables (m : Mesh rv) (cs : list (list rv)) (ms : list (list R)).
Hypothesis G : geo_mesh m.
Hypothesis HN : no_empty m.
Hypothesis CS : centers_spec m cs.
Hypothesis MS : measured m cs ms.
Notation d := (m_dim m).

Definition good (k : nat) (i : N) (vs : list point) : Prop :=
  (forall c, at_ cs k i = Some c -> is_mean d vs c) /\
  (forall ps, frame m cs k i ps -> aff_indep d ps /\ (forall p, In p ps -> on_flat d vs p) /\ (forall v, In v vs -> on_flat d ps v)) /\
  (forall V, at_ ms k i = Some V -> svol d vs V).

Lemma simplex_len k i vs : simplex m k i vs -> length vs = S k.
Proof. intros H. destruct H as [e a b vs _ P|k i js vs opp _ _ _ L _]; [apply Permutation_length in P; exact P|exact L]. Qed.

Lemma simplex_good : forall k i vs, (k <= d)%nat -> simplex m k i vs -> lens d vs -> aff_indep d vs -> good k i vs.
Proof.
  pose proof (centers_tables _ _ CS) as T. destruct MS as (_ & MT & ME & MM).
  induction k as [|k IH]; intros i vs Hk HS HL HI.
  { inversion HS. }
  inversion HS as [e a b vs0 Hab HP E1 E2 E3|k0 i0 js vs0 opp Hk1 Hch HP Hlen HF E1 E2 E3]; subst.
  - split; [|split].
    + intros c Hc. eapply mean_perm; [symmetry; exact HP|]. eapply (cs_edge _ _ CS); eassumption.
    + intros ps Hp. inversion Hp as [e' a' b' Hab' E1 E2 E3|]; subst; [|lia].
      destruct (edge_points_det _ _ _ _ _ _ Hab Hab') as [<- <-].
      assert (HL' : lens d [a; b]) by (eapply Permutation_Forall; eassumption).
      rewrite Forall_forall in HL, HL'.
      split; [eapply aff_indep_perm; eassumption|split].
      * intros p Hp'. apply flat_in; [eapply Permutation_in; [symmetry; exact HP|assumption]|apply HL'; assumption].
      * intros p Hp'. apply flat_in; [eapply Permutation_in; [exact HP|assumption]|apply HL; assumption].
    + intros V HV. rewrite (ME i a b V Hab HV). destruct (edge_points_length _ _ _ _ G Hab) as [La Lb].
      eapply (svol_perm d 2 [a; b]); [reflexivity|symmetry; exact HP| |apply svol_two; assumption].
      eapply aff_indep_perm; eassumption.
  - (* facts about each facet *)
    assert (Facet : forall j v ws, In j js -> Permutation vs (v :: ws) -> simplex m k j ws ->
              length v = d /\ lens d ws /\ ws <> [] /\ aff_indep d ws /\ ~ on_flat d ws v /\ length ws = S k /\ good k j ws).
    { intros j v ws Hj P Sx. assert (HL' : lens d (v :: ws)) by (eapply Permutation_Forall; eassumption).
      apply Forall_cons_iff in HL' as [Lv Lw]. pose proof (aff_indep_perm _ _ _ P HI) as HI'.
      pose proof (aff_indep_tl _ _ _ HI') as HIw. pose proof (simplex_len _ _ _ Sx) as Lws.
      splits; try assumption; [destruct ws; [discriminate|discriminate]|apply aff_indep_off; assumption|apply IH; [lia|assumption..]]. }
    assert (Hlt : forall j, In j js -> (j < N.of_nat (n_elems m k))%N).
    { intros j Hj. pose proof (children_lt m (S k) i js j (geo_wf _ G) ltac:(lia) Hch Hj) as Q. cbn [Nat.sub] in Q.
      rewrite Nat.sub_0_r in Q. exact Q. }
    assert (Njs : length js = S (S k)).
    { apply Forall2_len in HF. apply Permutation_length in HP. congruence. }
    assert (Mean : forall c, at_ cs (S k) i = Some c -> is_mean d vs c).
    { intros c Hc. destruct (cs_mean _ _ CS (S k) i js c ltac:(lia) Hch Hc) as (ps & HFp & Lc & Hm).
      split; [assumption|]. intros t Ht. rewrite (Hm t Ht).
      assert (Lps : length ps = S (S k)) by (apply Forall2_len in HFp; congruence). rewrite Lps, Hlen.
      set (S0 := Rsum (map (fun p => nth t p 0) vs)).
      pose proof (Forall2_join _ _ _ _ _ HF HFp) as HJ.
      assert (E : Rsum (map (fun p => nth t p 0) ps) = (INR (length ps) * S0 - Rsum (map (fun p => nth t p 0) opp)) / INR (S k)).
      { assert (HJ' : Forall2 (fun v p => nth t p 0 = (S0 - nth t v 0) / INR (S k)) opp ps).
        { eapply Forall2_mono; [|exact HJ]. intros v p (j & Hj & (ws & P & Sx) & Hp).
          destruct (Facet j v ws Hj P Sx) as (_ & _ & _ & _ & _ & Lw & (Gm & _)).
          replace (S k - 1)%nat with k in Hp by lia. destruct (Gm p Hp) as [_ Gp]. rewrite (Gp t Ht), Lw. f_equal.
          unfold S0. rewrite (Rsum_perm _ _ (Permutation_map (fun p => nth t p 0) P)). cbn [map Rsum]. ring. }
        clear -HJ'. assert (INR (S k) <> 0) by (apply not_0_INR; lia). induction HJ' as [|v p opp ps E _ IH].
        - simpl. field. assumption.
        - cbn [map Rsum length]. rewrite IH, E, (S_INR (length ps)). field. assumption. }
      assert (E2 : Rsum (map (fun p => nth t p 0) opp) = S0) by (unfold S0; apply Rsum_perm, Permutation_map; assumption).
      rewrite E, E2, Lps. rewrite (S_INR (S k)). assert (INR (S k) <> 0) by (apply not_0_INR; lia).
      assert (INR (S k) + 1 <> 0) by (rewrite <- S_INR; apply not_0_INR; lia). field. split; assumption. }
    split; [exact Mean|split].
    + intros ps Hp. inversion Hp as [|k1 i1 c j js1 ps0 _ Hc Hsub Hf E1 E2 E3]; subst; [lia|].
      assert (Hj : In j js).
      { unfold children in Hch. destruct (Nat.eqb_spec (S k) d) as [Ed|_]; [|rewrite Hsub in Hch; injection Hch as <-; left; reflexivity].
        exfalso. clear -Hsub Ed G. (* a cell has no list of faces *)
        unfold subs in Hsub. destruct (Nat.eqb_spec (S k) (d - 1)); [lia|].
        rewrite nth_overflow in Hsub; [|rewrite (wf_mid _ (geo_wf _ G)); lia]. apply vat_ok in Hsub.
        destruct (N.to_nat i); discriminate. }
      destruct (Forall2_in_l _ _ _ _ HF Hj) as (v & _ & ws & P & Sx).
      destruct (Facet j v ws Hj P Sx) as (Lv & Lw & Nw & HIw & Off & Lws & (_ & Gf & _)).
      destruct (Gf ps0 Hf) as (I0 & F1 & F2).
      pose proof (mean_perm _ _ _ _ P (Mean c Hc)) as Hmc.
      assert (Lc : length c = d) by apply Hmc.
      split; [|split].
      * apply aff_indep_cons; [assumption|assumption|]. intros Hbad.
        apply (center_off d v c ws Lv Lw Hmc Off). apply (flat_trans d ws ps0); assumption.
      * intros p [<-|Hp'].
        -- apply (mean_flat d); [destruct vs; discriminate|]. apply Mean. assumption.
        -- apply (flat_incl d vs ws); [assumption| |apply F1; assumption].
           intros w Hw. eapply Permutation_in; [symmetry; exact P|right; assumption].
      * intros u Hu. assert (Hu' : In u (v :: ws)) by (eapply Permutation_in; eassumption).
        destruct (frame_len _ _ _ _ _ G T Hp) as [Lfr _].
        assert (Hin : forall w, In w ws -> on_flat d (c :: ps0) w).
        { intros w Hw. apply (flat_incl d _ ps0); [assumption|intros z Hz; right; assumption|apply F2; assumption]. }
        destruct Hu' as [<-|Hw]; [|apply Hin; assumption].
        apply (flat_trans d _ (c :: ws)); [|apply (vertex_flat d v c ws Lv Hmc)].
        intros z [<-|Hz]; [apply flat_in; [left; reflexivity|assumption]|apply Hin; assumption].
    + intros V HV.
      assert (Hi : (i < N.of_nat (n_elems m (S k)))%N).
      { unfold at_ in HV. replace (S k - 1)%nat with k in HV by lia. destruct (nth_error ms k) as [tab|] eqn:Et; [|discriminate].
        pose proof (MT k tab Et) as Lt. assert (N.to_nat i < length tab)%nat by (apply nth_error_Some; congruence). lia. }
      destruct (tab_at m cs (S k) i T ltac:(lia) Hi) as (c & Hc).
      destruct (MM (S k) i js c V ltac:(lia) Hch Hc HV) as (hs & mus & Hhs & Hmus & ->).
      replace (S k - 1)%nat with k in * by lia.
      destruct (svol_exists d vs ltac:(destruct vs; discriminate) HL HI) as (V0 & SV0 & _).
      assert (E : psum hs mus = INR (length js) * (V0 * INR (S k) / INR (S (S k)))).
      { eapply psum_const; [exact Hhs|exact Hmus|]. intros j h mu Hj Hh Hmu.
        destruct (Forall2_in_l _ _ _ _ HF Hj) as (v & _ & ws & P & Sx).
        destruct (Facet j v ws Hj P Sx) as (Lv & Lw & Nw & HIw & Off & Lws & (_ & Gf & Gv)).
        destruct (frame_total m cs G HN T k j ltac:(lia) (Hlt j Hj)) as (ps & Hps).
        destruct (Gf ps Hps) as (Ips & F1 & F2). destruct (frame_len _ _ _ _ _ G T Hps) as [Lps _].
        pose proof (mean_perm _ _ _ _ P (Mean c Hc)) as Hmc. assert (Lc : length c = d) by apply Hmc.
        pose proof (height_flat d ps ws c h Lps Lw Lc F2 F1 (Hh ps Hps Ips)) as Hhc.
        destruct (foot_exists d ws v Nw Lw Lv HIw) as (q & Hq).
        assert (Hhv : height d ws v (dist v q)) by (exists q; auto).
        pose proof (center_height d v c ws Lv Lw Hmc _ Hhv) as Hhc'.
        rewrite (height_unique d ws c _ _ Lw Lc Hhc Hhc').
        pose proof (sv_cone d ws mu v _ (Gv mu Hmu) Lv Hhv) as Sv.
        assert (P' : Permutation (ws ++ [v]) vs).
        { etransitivity; [symmetry; apply Permutation_cons_append|symmetry; exact P]. }
        assert (HIv : aff_indep d (ws ++ [v])) by (eapply aff_indep_perm; [symmetry; exact P'|assumption]).
        pose proof (svol_perm d _ _ _ _ eq_refl P' HIv Sv) as Sv'.
        rewrite (svol_unique d _ _ SV0 _ Sv'). cbn [length]. rewrite Lws.
        assert (INR (S k) <> 0) by (apply not_0_INR; lia). assert (INR (S (S k)) <> 0) by (apply not_0_INR; lia). field. split; assumption. }
      rewrite E, Njs. replace (_ / INR (S k)) with V0; [assumption|].
      assert (INR (S k) <> 0) by (apply not_0_INR; lia). assert (INR (S (S k)) <> 0) by (apply not_0_INR; lia). field. split; assumption.
Qed.
End Simplex.

(** Proofs for C46: centres of elements. *)
From Coq Require Import Reals Lra Psatz.
From Verif Require Import P_Base M_Conn M_Index M_Mesh M_Apply S_Mesh P_Apply M_Vec S_Vec P_Vec P_GS P_GS3 M_Geom S_Geom P_Geom.
Local Open Scope R_scope.

Definition look (tab : list rv) (j : N) (p : rv) : Prop := nth_error tab (N.to_nat j) = Some p.

Lemma apply1_children {V} (m : Mesh V) k i js : (1 <= k <= m_dim m)%nat -> children m k i js ->
  apply1 m k (k - 1) i = Ok (map (fun j => (i, j)) js).
Proof.
  intros Hk Hc. unfold apply1.
  assert (Hv : visits m k (k - 1) i js).
  { destruct k as [|k]; [lia|]. replace (S k - 1)%nat with k by lia.
    replace js with (concat (map (fun j => [j]) js)) by (clear; induction js; simpl; congruence).
    eapply visits_step; [lia|exact Hc|]. clear. induction js; simpl; constructor; [constructor|assumption]. }
  rewrite (visits_run _ _ _ _ _ Hv) by lia. simpl. destruct (Nat.ltb_spec (k - 1) k); [reflexivity|lia].
Qed.

Lemma sum_sub_fold (sub : list rv) i js ps : Forall2 (look sub) js ps -> forall (s : rv) (n : R),
  foldM (sum_sub (K := numR) sub) (map (fun j : N => (i, j)) js) (s, n) =
  Ok (fold_left (vadd (K := numR)) ps s, n + INR (length ps)).
Proof.
  induction 1 as [|j p js ps Hj HF IH]; intros s n.
  - cbn [map foldM fold_left length]. replace (n + INR 0) with n by (simpl; ring). reflexivity.
  - cbn [map foldM]. unfold sum_sub at 1. unfold look in Hj. apply vat_ok in Hj. nr. cbn [snd fst]. rewrite Hj.
    cbn [bind]. etransitivity; [apply IH|]. cbn [fold_left length]. cbn [nadd none_ numR].
    replace (n + 1 + INR (length ps)) with (n + INR (S (length ps))) by (rewrite S_INR; ring). reflexivity.
Qed.
Lemma fold_vadd d (ps : list rv) (s : rv) : length s = d -> Forall (fun p => length p = d) ps ->
  length (fold_left (vadd (K := numR)) ps s) = d /\
  forall i, (i < d)%nat -> nth i (fold_left (vadd (K := numR)) ps s) 0 = nth i s 0 + Rsum (map (fun p => nth i p 0) ps).
Proof.
  revert s. induction ps as [|p ps IH]; intros s Hs HF.
  - split; [assumption|]. intros. simpl. ring.
  - apply Forall_cons_iff in HF as [Hp HF]. cbn [fold_left].
    destruct (IH (vadd (K := numR) s p)) as [L H]; [rewrite vadd_length; congruence|assumption|].
    split; [assumption|]. intros i Hi. rewrite (H i Hi).
    assert (E : nth i (vadd (K := numR) s p) 0 = nth i s 0 + nth i p 0).
    { apply (zip_nth Rplus); [rewrite Hs|rewrite Hp]; assumption. }
    etransitivity; [apply f_equal2; [exact E|reflexivity]|]. simpl. ring.
Qed.
Lemma lookups (tab : list rv) n js : length tab = n -> (forall j, In j js -> (j < N.of_nat n)%N) ->
  exists ps, Forall2 (look tab) js ps.
Proof.
  intros L. induction js as [|j js IH]; intros H; [exists []; constructor|].
  destruct IH as (ps & HF); [intros; apply H; right; assumption|].
  destruct (vat_lt tab j) as [p Hp]; [rewrite L; apply H; left; reflexivity|].
  exists (p :: ps). constructor; [|assumption]. apply vat_ok. assumption.
Qed.
Lemma look_length tab d js ps : (forall p : rv, In p tab -> length p = d) -> Forall2 (look tab) js ps ->
  Forall (fun p => length p = d) ps.
Proof. intros H. induction 1; constructor; [|assumption]. apply H. eapply nth_error_In; eassumption. Qed.

Lemma children_nonempty {V} (m : Mesh V) k i js : no_empty m -> (2 <= k <= m_dim m)%nat -> children m k i js -> js <> [].
Proof.
  intros HN Hk Hc. unfold children in Hc. destruct (Nat.eqb_spec k (m_dim m)).
  - destruct Hc as (f0 & r & -> & _). discriminate.
  - eapply HN; [|eassumption]. lia.
Qed.

Lemma edge_centers_ok (m : Mesh rv) : geo_mesh m ->
  exists tab, edge_centers (K := numR) m = Ok tab /\ length tab = n_elems m 1 /\
    (forall p, In p tab -> length p = m_dim m) /\
    (forall e a b c, edge_points m e a b -> look tab e c -> is_mean (m_dim m) [a; b] c).
Proof.
  intros G. unfold edge_centers.
  destruct (table_ok (fun e => ab <- edge_pts (K := numR) m e ;; Ok (vscale (K := numR) (vadd (K := numR) (fst ab) (snd ab)) (half (K := numR))))
    (fun e c => exists a b, edge_points m e a b /\ is_mean (m_dim m) [a; b] c) (n_elems m 1)) as (tab & E & L & H & _).
  { intros e He. destruct (edge_points_total m e G He) as (a & b & Hab).
    destruct (edge_points_length m e a b G Hab) as [La Lb].
    exists (vscale (K := numR) (vadd (K := numR) a b) (half (K := numR))). split.
    { apply ends_edge in Hab. nr. rewrite Hab. reflexivity. }
    exists a, b. split; [assumption|]. split; [rewrite vscale_length, vadd_length; congruence|].
    intros i Hi. rewrite vscale_nth.
    assert (Ei : nth i (vadd (K := numR) a b) 0 = nth i a 0 + nth i b 0) by (apply (zip_nth Rplus); congruence).
    etransitivity; [apply f_equal2; [exact Ei|reflexivity]|]. unfold half, two. simpl. field. }
  exists tab. split; [exact E|]. split; [exact L|].
  assert (H' : forall e a b c, edge_points m e a b -> look tab e c -> is_mean (m_dim m) [a; b] c).
  { intros e a b c Hab Hc. destruct (H e c Hc) as (a' & b' & Hab' & Hm).
    destruct (edge_points_det _ _ _ _ _ _ Hab Hab') as [-> ->]. assumption. }
  split; [|assumption].
  intros p Hp. apply In_nth_error in Hp as (e & He).
  destruct (H (N.of_nat e) p) as (a' & b' & Hab' & Hm); [rewrite Nat2N.id; assumption|]. apply Hm.
Qed.

Lemma center_level_ok (m : Mesh rv) k sub : geo_mesh m -> no_empty m -> (2 <= k <= m_dim m)%nat ->
  length sub = n_elems m (k - 1) -> (forall p, In p sub -> length p = m_dim m) ->
  exists tab, center_level (K := numR) (m_dim m) m k sub = Ok tab /\ length tab = n_elems m k /\
    (forall p, In p tab -> length p = m_dim m) /\
    (forall i js c, children m k i js -> look tab i c -> exists ps, Forall2 (look sub) js ps /\ is_mean (m_dim m) ps c).
Proof.
  intros G HN Hk Hs Hd. unfold center_level.
  destruct (table_ok (fun i => calls <- apply1 m k (k - 1) i ;;
                 s <- foldM (sum_sub (K := numR) sub) calls (repeat (nzero (n := numR)) (m_dim m), (nzero (n := numR))) ;;
                 Ok (vdiv (K := numR) (fst s) (snd s)))
    (fun i c => exists js ps, children m k i js /\ Forall2 (look sub) js ps /\ is_mean (m_dim m) ps c) (n_elems m k)) as (tab & E & L & H & _).
  { intros i Hi. destruct (children_total m k i (geo_wf _ G) ltac:(lia) Hi) as (js & Hc).
    destruct (lookups sub _ js Hs) as (ps & HF).
    { intros j Hj. eapply children_lt; [apply G| |eassumption|eassumption]. lia. }
    pose proof (look_length _ _ _ _ Hd HF) as HL.
    assert (Hne : ps <> []).
    { pose proof (children_nonempty m k i js HN Hk Hc). destruct HF; [congruence|discriminate]. }
    destruct (fold_vadd (m_dim m) ps (repeat 0 (m_dim m)) (repeat_length _ _) HL) as [Lf Hf].
    exists (vdiv (K := numR) (fold_left (vadd (K := numR)) ps (repeat 0 (m_dim m))) (0 + INR (length ps))). split.
    { pose proof (apply1_children m k i js ltac:(lia) Hc) as Ea. nr. rewrite Ea. cbn [bind].
      pose proof (sum_sub_fold sub i js ps HF (repeat 0 (m_dim m)) 0) as Ef. cbn [nzero numR] in *. nr. rewrite Ef. reflexivity. }
    exists js, ps. split; [assumption|]. split; [assumption|]. split; [unfold vdiv; rewrite vscale_length; exact Lf|].
    intros d Hdd. unfold vdiv. rewrite vscale_nth. cbn [ndiv none_ numR].
    etransitivity; [apply f_equal2; [exact (Hf d Hdd)|reflexivity]|]. rewrite nth_repeat.
    assert (INR (length ps) <> 0) by (apply not_0_INR; destruct ps; [congruence|simpl; lia]). field. lra. }
  exists tab. split; [exact E|]. split; [exact L|]. split.
  - intros p Hp. apply In_nth_error in Hp as (e & He).
    destruct (H (N.of_nat e) p) as (? & ? & _ & _ & Hm); [rewrite Nat2N.id; assumption|]. apply Hm.
  - intros i js c Hc Hl. destruct (H i c Hl) as (js' & ps & Hc' & HF & Hm).
    rewrite <- (children_det _ _ _ _ _ Hc Hc') in HF. eauto.
Qed.

(** One level of the spec: table of dimension [k] from that of dimension [k-1]. *)
Definition level_spec (m : Mesh rv) (k : nat) (sub tab : list rv) : Prop :=
  length tab = n_elems m k /\ (forall p, In p tab -> length p = m_dim m) /\
  (forall i js c, children m k i js -> look tab i c -> exists ps, Forall2 (look sub) js ps /\ is_mean (m_dim m) ps c).
Fixpoint levels_spec (m : Mesh rv) (k : nat) (sub : list rv) (tabs : list (list rv)) : Prop :=
  match tabs with
  | [] => True
  | t :: r => level_spec m k sub t /\ levels_spec m (S k) t r
  end.
Lemma levels_spec_nth m tabs : forall k sub, levels_spec m k sub tabs -> forall j sub' tab,
  nth_error (sub :: tabs) j = Some sub' -> nth_error tabs j = Some tab -> level_spec m (k + j) sub' tab.
Proof.
  induction tabs as [|t r IH]; intros k sub H j sub' tab Hs Ht; [destruct j; discriminate|].
  destruct H as [H1 H2]. destruct j as [|j].
  - injection Hs as <-. injection Ht as <-. rewrite Nat.add_0_r. assumption.
  - simpl in Hs, Ht. replace (k + S j)%nat with (S k + j)%nat by lia. eapply IH; eassumption.
Qed.
Lemma center_levels_ok (m : Mesh rv) tess : geo_mesh m -> no_empty m ->
  forall steps k sub, (2 <= k)%nat -> (k + steps = S (m_dim m))%nat -> (tess = true -> m_dim m <> 3%nat \/ k <> 2%nat) ->
  length sub = n_elems m (k - 1) -> (forall p, In p sub -> length p = m_dim m) ->
  exists tabs, center_levels (K := numR) tess (m_dim m) m steps k sub = Ok tabs /\ length tabs = steps /\ levels_spec m k sub tabs.
Proof.
  intros G HN. induction steps as [|s IH]; intros k sub Hk Ek Ht Hs Hd.
  - exists []. repeat split.
  - destruct (center_level_ok m k sub G HN ltac:(lia) Hs Hd) as (tab & E & L & Hd' & Hm).
    destruct (IH (S k) tab) as (tabs & E' & L' & Hm'); [lia|lia|intros; right; lia| |assumption|].
    { replace (S k - 1)%nat with k by lia. assumption. }
    exists (tab :: tabs). split; [|split; [simpl; congruence|split; [split; [|split]; assumption|assumption]]].
    cbn [center_levels].
    assert (B : (tess && (k =? 2)%nat && (m_dim m =? 3)%nat)%bool = false).
    { destruct tess; [|reflexivity]. destruct (Nat.eqb_spec k 2), (Nat.eqb_spec (m_dim m) 3); try reflexivity.
        destruct (Ht eq_refl); lia. }
    nr. rewrite B, E. cbn [bind]. refine (eq_trans (f_equal (fun o => bind o _) E') _). reflexivity.
Qed.

Lemma levels_centers_spec m e tabs : length e = n_elems m 1 -> (forall p, In p e -> length p = m_dim m) ->
  (forall i a b c, edge_points m i a b -> look e i c -> is_mean (m_dim m) [a; b] c) ->
  (1 <= m_dim m)%nat -> length tabs = (m_dim m - 1)%nat -> levels_spec m 2 e tabs -> centers_spec m (e :: tabs).
Proof.
  intros Le He Hm Hd Lt HL. constructor.
  - simpl. lia.
  - intros [|k] tab Hk; [injection Hk as <-; auto|]. simpl in Hk.
    assert (Hs : exists s, nth_error (e :: tabs) k = Some s).
    { destruct (nth_error (e :: tabs) k) eqn:E; [eauto|]. apply nth_error_None in E. simpl in E.
      assert (k < length tabs)%nat by (apply nth_error_Some; congruence). lia. }
    destruct Hs as (s & Hs). destruct (levels_spec_nth m tabs 2 e HL k s tab Hs Hk) as (H1 & H2 & _).
    simpl in H1. auto.
  - intros i a b c Hab Hc. eapply Hm; [eassumption|]. exact Hc.
  - intros k i js c Hk Hc Ha. unfold at_ in Ha. destruct (nth_error (e :: tabs) (k - 1)) as [tab|] eqn:Et; [|discriminate].
    destruct k as [|[|k]]; try lia. replace (S (S k) - 1)%nat with (S k) in * by lia. simpl in Et.
    assert (Hs : exists s, nth_error (e :: tabs) k = Some s).
    { destruct (nth_error (e :: tabs) k) eqn:E; [eauto|]. apply nth_error_None in E. simpl in E.
      assert (k < length tabs)%nat by (apply nth_error_Some; congruence). lia. }
    destruct Hs as (s & Hs). destruct (levels_spec_nth m tabs 2 e HL k s tab Hs Et) as (_ & _ & H).
    destruct (H i js c) as (ps & HF & Hmm); [exact Hc|exact Ha|]. exists ps. split; [|assumption].
    eapply Forall2_mono; [|exact HF]. intros j p Hj. unfold at_. replace (S k - 1)%nat with k by lia. rewrite Hs. exact Hj.
Qed.

Lemma is_mean_det d ps c c' : is_mean d ps c -> is_mean d ps c' -> c = c'.
Proof.
  intros [L H] [L' H']. apply nth_ext_R; [congruence|]. intros i Hi. rewrite H, H' by congruence. reflexivity.
Qed.
Lemma at_det {A} (cs : list (list A)) k i p p' : at_ cs k i = Some p -> at_ cs k i = Some p' -> p = p'.
Proof. congruence. Qed.
Lemma Forall2_det {A B} (P : A -> B -> Prop) js ps ps' : (forall j p p', P j p -> P j p' -> p = p') ->
  Forall2 P js ps -> Forall2 P js ps' -> ps = ps'.
Proof.
  intros H HF. revert ps'. induction HF as [|j p js ps Hj HF IH]; intros ps' H'; inv H'; [reflexivity|].
  f_equal; [eapply H; eassumption|apply IH; assumption].
Qed.

Lemma at_lt m cs k i : centers_spec m cs -> (1 <= k <= m_dim m)%nat ->
  ((i < N.of_nat (n_elems m k))%N <-> exists c, at_ cs k i = Some c).
Proof.
  intros S Hk. unfold at_. destruct (nth_error cs (k - 1)) as [tab|] eqn:E.
  - destruct (cs_tab _ _ S _ _ E) as [L _]. replace (Datatypes.S (k - 1)) with k in L by lia. rewrite <- L.
    rewrite <- (N2Nat.id i) at 1. split.
    + intros H. destruct (nth_error tab (N.to_nat i)) as [c|] eqn:Ec; [eauto|]. apply nth_error_None in Ec. lia.
    + intros (c & Hc). assert (N.to_nat i < length tab)%nat by (apply nth_error_Some; congruence). lia.
  - apply nth_error_None in E. rewrite (cs_len _ _ S) in E. lia.
Qed.

Lemma centers_unique m cs cs' : geo_mesh m -> centers_spec m cs -> centers_spec m cs' -> cs = cs'.
Proof.
  intros G S S'.
  assert (H : forall k, (1 <= k <= m_dim m)%nat -> forall i, at_ cs k i = at_ cs' k i).
  { induction k as [|k IH]; [lia|]. intros Hk i.
    destruct (N.lt_ge_cases i (N.of_nat (n_elems m (Datatypes.S k)))) as [Hi|Hi].
    - destruct (proj1 (at_lt _ _ _ i S Hk) Hi) as (c & Hc). destruct (proj1 (at_lt _ _ _ i S' Hk) Hi) as (c' & Hc').
      rewrite Hc, Hc'. f_equal. destruct k as [|k].
      + destruct (edge_points_total m i G Hi) as (a & b & Hab).
        eapply is_mean_det; [eapply (cs_edge _ _ S); eassumption|eapply (cs_edge _ _ S'); eassumption].
      + destruct (children_total m _ i (geo_wf _ G) Hk Hi) as (js & Hj).
        destruct (cs_mean _ _ S (Datatypes.S (Datatypes.S k)) i js c ltac:(lia) Hj Hc) as (ps & HF & Hm).
        destruct (cs_mean _ _ S' (Datatypes.S (Datatypes.S k)) i js c' ltac:(lia) Hj Hc') as (ps' & HF' & Hm').
        assert (ps = ps'); [|subst; eapply is_mean_det; eassumption].
        eapply (Forall2_det _ js); [|exact HF|]; [intros ? ? ?; apply at_det|].
        eapply Forall2_mono; [|exact HF']. intros j p Hjp. cbn beta.
        replace (Datatypes.S (Datatypes.S k) - 1)%nat with (Datatypes.S k) in * by lia. rewrite IH by lia. assumption.
    - assert (H1 : forall cs0, centers_spec m cs0 -> at_ cs0 (Datatypes.S k) i = None).
      { intros cs0 S0. destruct (at_ cs0 (Datatypes.S k) i) as [c|] eqn:Ec; [|reflexivity].
        pose proof (proj2 (at_lt _ _ _ i S0 Hk) (ex_intro _ c Ec)). lia. }
      rewrite !H1 by assumption. reflexivity. }
  apply nth_error_ext. intros k.
  destruct (nth_error cs k) as [tab|] eqn:E; destruct (nth_error cs' k) as [tab'|] eqn:E'.
  - f_equal. apply nth_error_ext. intros i. specialize (H (Datatypes.S k)).
    assert (k < length cs)%nat by (apply nth_error_Some; congruence). pose proof (cs_len _ _ S).
    specialize (H ltac:(lia) (N.of_nat i)). unfold at_ in H. simpl in H. rewrite Nat.sub_0_r, E, E', Nat2N.id in H. assumption.
  - apply nth_error_None in E'. assert (k < length cs)%nat by (apply nth_error_Some; congruence).
    pose proof (cs_len _ _ S). pose proof (cs_len _ _ S'). lia.
  - apply nth_error_None in E. assert (k < length cs')%nat by (apply nth_error_Some; congruence).
    pose proof (cs_len _ _ S). pose proof (cs_len _ _ S'). lia.
  - reflexivity.
Qed.

(** Translation. *)
Lemma shift_length t p : length t = length p -> length (shift t p) = length p.
Proof. revert p. induction t as [|x t IH]; intros [|y p]; simpl; intros H; try discriminate; auto. Qed.
Lemma shift_nth t p i : length t = length p -> (i < length p)%nat -> nth i (shift t p) 0 = nth i p 0 + nth i t 0.
Proof.
  revert p i. induction t as [|x t IH]; intros [|y p] i; simpl; intros H Hi; try discriminate; try lia.
  destruct i; [reflexivity|]. apply IH; lia.
Qed.
Lemma is_mean_shift d t ps c : length t = d -> ps <> [] -> Forall (fun p => length p = d) ps ->
  is_mean d ps c -> is_mean d (map (shift t) ps) (shift t c).
Proof.
  intros Ht Hne HF [L H]. split; [rewrite shift_length; congruence|]. intros i Hi.
  rewrite shift_nth by congruence. rewrite H by assumption. rewrite map_map, map_length.
  rewrite (Rsum_ext (fun x => nth i (shift t x) 0) (fun x => nth i x 0 + nth i t 0)).
  2:{ intros x Hx. rewrite Forall_forall in HF. pose proof (HF x Hx). apply shift_nth; lia. }
  rewrite Rsum_plus, Rsum_const.
  assert (INR (length ps) <> 0) by (apply not_0_INR; destruct ps; [congruence|simpl; lia]). field. assumption.
Qed.
Lemma n_elems_translate t m k : n_elems (translate t m) k = n_elems m k.
Proof. unfold n_elems, translate. simpl. rewrite map_length. reflexivity. Qed.
Lemma ring_translate t m c fs : ring (translate t m) c fs <-> ring m c fs.
Proof.
  assert (H : forall f0 l, closed_chain (translate t m) c f0 l <-> closed_chain m c f0 l).
  { intros f0. induction l as [|f l IH]; [reflexivity|]. destruct l as [|g l]; [reflexivity|].
    cbn [closed_chain] in *. rewrite IH. reflexivity. }
  unfold ring. split; intros (f0 & r & H1 & H2 & H3 & H4); exists f0, r; (split; [exact H1|split; [exact H2|split; [|exact H4]]]);
    apply H; exact H3.
Qed.
Lemma children_translate t m k i js : children (translate t m) k i js <-> children m k i js.
Proof. unfold children. simpl m_dim. destruct (k =? m_dim m); [apply ring_translate|reflexivity]. Qed.
Lemma geo_translate t m : length t = m_dim m -> geo_mesh m -> geo_mesh (translate t m).
Proof.
  intros Ht G. constructor.
  - destruct (geo_wf _ G) as [W1 W2 W3 W4]. constructor; [exact W1|exact W2| |intros c Hc; destruct (W4 c Hc) as (fs & Hf); exists fs; apply ring_translate; assumption].
    intros k i js Hk Hs. rewrite n_elems_translate. apply (W3 k i js); assumption.
  - intros p Hp. simpl in Hp. apply in_map_iff in Hp as (q & <- & Hq). rewrite shift_length; [apply (geo_pts _ G); assumption|].
    rewrite (geo_pts _ G q Hq). assumption.
Qed.
Lemma at_map {A B} (f : A -> B) cs k i : at_ (map (map f) cs) k i = option_map f (at_ cs k i).
Proof. unfold at_. rewrite nth_error_map. destruct (nth_error cs (k - 1)); [|reflexivity]. simpl. apply nth_error_map. Qed.
Lemma Forall2_at_length m cs k js ps : centers_spec m cs ->
  Forall2 (fun j p => at_ cs k j = Some p) js ps -> Forall (fun p => length p = m_dim m) ps.
Proof.
  intros S. induction 1 as [|j p js ps H HF IH]; constructor; [|assumption].
  unfold at_ in H. destruct (nth_error cs (k - 1)) as [tab|] eqn:E; [|discriminate].
  apply (proj2 (cs_tab _ _ S _ _ E)). eapply nth_error_In; eassumption.
Qed.
Lemma centers_translate t m cs : length t = m_dim m -> no_empty m -> geo_mesh m ->
  centers_spec m cs -> centers_spec (translate t m) (map (map (shift t)) cs).
Proof.
  intros Ht HN G S. constructor.
  - rewrite map_length. apply (cs_len _ _ S).
  - intros k tab Hk. rewrite nth_error_map in Hk. destruct (nth_error cs k) as [tab0|] eqn:E; [|discriminate].
    injection Hk as <-. destruct (cs_tab _ _ S _ _ E) as [L Hp]. rewrite map_length, n_elems_translate. split; [assumption|].
    intros p Hi. apply in_map_iff in Hi as (q & <- & Hq). simpl. pose proof (Hp q Hq). rewrite shift_length; lia.
  - intros e a b c Hab Hc. rewrite at_map in Hc. destruct (at_ cs 1 e) as [c0|] eqn:E; [|discriminate]. injection Hc as <-.
    destruct Hab as (i & j & Hs & Hi & Hj). simpl in Hi, Hj. rewrite nth_error_map in Hi, Hj.
    destruct (nth_error (m_verts m) (N.to_nat i)) as [a0|] eqn:Ea; [|discriminate].
    destruct (nth_error (m_verts m) (N.to_nat j)) as [b0|] eqn:Eb; [|discriminate]. injection Hi as <-. injection Hj as <-.
    change [shift t a0; shift t b0] with (map (shift t) [a0; b0]). simpl m_dim.
    assert (Hp : edge_points m e a0 b0) by (exists i, j; auto).
    destruct (edge_points_length _ _ _ _ G Hp).
    apply is_mean_shift; [assumption|discriminate|repeat constructor; assumption|].
    eapply (cs_edge _ _ S); eassumption.
  - intros k i js c Hk Hc Ha. simpl m_dim in *. rewrite at_map in Ha. destruct (at_ cs k i) as [c0|] eqn:E; [|discriminate]. injection Ha as <-.
    apply children_translate in Hc.
    destruct (cs_mean _ _ S _ _ _ _ Hk Hc E) as (ps & HF & Hm). exists (map (shift t) ps). split.
    + clear - HF. induction HF; simpl; constructor; [|assumption]. rewrite at_map, H. reflexivity.
    + apply is_mean_shift; [assumption| |eapply Forall2_at_length; eassumption|assumption].
      pose proof (children_nonempty m k i js HN Hk Hc). destruct HF; [congruence|discriminate].
Qed.

(** Half spaces. *)
Lemma sprod_mean d (w : rv) ps c : length w = d -> ps <> [] -> Forall (fun p => length p = d) ps -> is_mean d ps c ->
  sprod c w = Rsum (map (fun p => sprod p w) ps) / INR (length ps).
Proof.
  intros Hw Hne HF Hm.
  assert (Hn : INR (length ps) <> 0) by (apply not_0_INR; destruct ps; [congruence|simpl; lia]).
  assert (Hc : c = vscale (K := numR) (fold_left (vadd (K := numR)) ps (repeat 0 d)) (/ INR (length ps))).
  { destruct (fold_vadd d ps (repeat 0 d) (repeat_length _ _) HF) as [Lf Hf].
    eapply is_mean_det; [exact Hm|]. split; [rewrite vscale_length; exact Lf|]. intros i Hi. rewrite vscale_nth.
    etransitivity; [apply f_equal2; [exact (Hf i Hi)|reflexivity]|]. rewrite nth_repeat. field. assumption. }
  rewrite Hc. rewrite sprod_vscale_l.
  assert (HS : forall ps s, length s = d -> Forall (fun p => length p = d) ps ->
     sprod (fold_left (vadd (K := numR)) ps s) w = sprod s w + Rsum (map (fun p => sprod p w) ps)).
  { clear. induction ps as [|p ps IH]; intros s Hs HF; [simpl; ring|].
    apply Forall_cons_iff in HF as [Hp HF]. cbn [fold_left map Rsum].
    etransitivity; [apply IH; [nr; rewrite vadd_length; lia|assumption]|]. 
    rewrite sprod_vadd_l by (nr; lia). ring. }
  etransitivity; [apply f_equal2; [reflexivity|apply HS; [apply repeat_length|assumption]]|].
  rewrite sprod_zero_l. field. assumption.
Qed.
Lemma mean_le d (w : rv) ps c (b : R) : length w = d -> ps <> [] -> Forall (fun p => length p = d) ps -> is_mean d ps c ->
  (forall p, In p ps -> sprod p w <= b) -> sprod c w <= b.
Proof.
  intros Hw Hne HF Hm Hb. rewrite (sprod_mean d w ps c) by assumption.
  assert (Hn : 0 < INR (length ps)) by (apply lt_0_INR; destruct ps; [congruence|simpl; lia]).
  apply (Rmult_le_reg_r (INR (length ps))); [assumption|].
  replace (Rsum (map (fun p => sprod p w) ps) / INR (length ps) * INR (length ps)) with (Rsum (map (fun p => sprod p w) ps)) by (field; lra).
  clear - Hb. induction ps as [|p ps IH]; [simpl; lra|]. cbn [map Rsum length]. rewrite S_INR.
  pose proof (Hb p (or_introl eq_refl)). specialize (IH (fun q Hq => Hb q (or_intror Hq))). lra.
Qed.

Lemma incident_step {V} (m : Mesh V) k t i js j v : (t <= k)%nat -> children m (S k) i js -> In j js -> incident m k t j v -> incident m (S k) t i v.
Proof.
  intros Ht Hc Hj (p & Hp & Hl). exists (j :: p). split; [eapply chain_step; eassumption|].
  destruct p as [|q p]; [exact Hl|]. cbn [last] in *. rewrite <- Hl. destruct p; [reflexivity|].
  clear. revert n. induction p as [|x p IH]; intros n; [reflexivity|]. cbn [last]. apply IH.
Qed.

Lemma center_halfspace m cs w (b : R) : geo_mesh m -> no_empty m -> centers_spec m cs -> length w = m_dim m ->
  forall k, (1 <= k <= m_dim m)%nat -> forall i c, at_ cs k i = Some c ->
  (forall v p, incident m k 0 i v -> nth_error (m_verts m) (N.to_nat v) = Some p -> sprod p w <= b) -> sprod c w <= b.
Proof.
  intros G HN S Hw. induction k as [|k IH]; [lia|]. intros Hk i c Hc Hv.
  assert (Hi : (i < N.of_nat (n_elems m (Datatypes.S k)))%N) by (apply (at_lt m cs _ i S Hk); eauto).
  pose proof (wf_dim _ (geo_wf _ G)) as HD.
  destruct k as [|k].
  - destruct (edge_points_total m i G Hi) as (x & y & Hxy). pose proof (cs_edge _ _ S _ _ _ _ Hxy Hc) as Hm.
    destruct (edge_points_length _ _ _ _ G Hxy). destruct Hxy as (j & j' & Hs & Hj & Hj').
    assert (Hch : children m 1 i [j; j']).
    { unfold children. destruct (Nat.eqb_spec 1 (m_dim m)); [lia|assumption]. }
    apply (mean_le (m_dim m) w [x; y] c b); [exact Hw|discriminate| |exact Hm|]; [repeat constructor; assumption|].
    intros p [<-|[<-|[]]].
    + apply (Hv j); [|assumption]. eapply incident_step; [lia|exact Hch|left; reflexivity|]. exists []. split; [constructor|reflexivity].
    + apply (Hv j'); [|assumption]. eapply incident_step; [lia|exact Hch|right; left; reflexivity|]. exists []. split; [constructor|reflexivity].
  - destruct (children_total m _ i (geo_wf _ G) Hk Hi) as (js & Hj).
    destruct (cs_mean _ _ S (Datatypes.S (Datatypes.S k)) i js c ltac:(lia) Hj Hc) as (ps & HF & Hm).
    pose proof (children_nonempty m (Datatypes.S (Datatypes.S k)) i js HN ltac:(lia) Hj) as Hne.
    apply (mean_le (m_dim m) w ps c b); [exact Hw| |eapply Forall2_at_length; eassumption|exact Hm|].
    + destruct HF; [congruence|discriminate].
    + replace (Datatypes.S (Datatypes.S k) - 1)%nat with (Datatypes.S k) in HF by lia.
      assert (HI : forall j, In j js -> forall v p, incident m (Datatypes.S k) 0 j v -> nth_error (m_verts m) (N.to_nat v) = Some p -> sprod p w <= b).
      { intros j Hjj v p Hinc. apply Hv. eapply incident_step; [lia|exact Hj|exact Hjj|assumption]. }
      clear - HF HI IH Hk. induction HF as [|j q js ps Hjq HF IHF]; [intros p []|]. intros p [<-|Hp].
      * eapply (IH ltac:(lia) j); [exact Hjq|]. apply HI. left; reflexivity.
      * apply IHF; [|assumption]. intros; eapply HI; [right; eassumption|eassumption|eassumption].
Qed.

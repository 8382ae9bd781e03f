(** Proofs for C70-C72: normals, measures in any dimension. *)
From Coq Require Import Reals Lra Psatz Permutation.
From Verif Require Import P_Base M_Conn M_Index M_Mesh M_Apply S_Mesh P_Apply M_Vec S_Vec P_Vec P_GS M_Geom S_Geom P_Geom P_Centers
  M_GeomN S_GeomN P_Flat P_Svol.
Local Open Scope R_scope.
Notation lens d := (Forall (fun w : point => length w = d)).

Lemma centers_tables m cs : centers_spec m cs -> tables m cs.
Proof. intros S. split; apply S. Qed.
Lemma tab_at (m : Mesh rv) cs k i : tables m cs -> (1 <= k <= m_dim m)%nat -> (i < N.of_nat (n_elems m k))%N ->
  exists c, at_ cs k i = Some c.
Proof.
  intros T Hk Hi. unfold at_. destruct (nth_error cs (k - 1)) as [tab|] eqn:E.
  - destruct (tb_tab _ _ T _ _ E) as [L _]. replace (S (k - 1)) with k in L by lia.
    destruct (nth_error tab (N.to_nat i)) eqn:Ec; [eauto|]. apply nth_error_None in Ec. lia.
  - apply nth_error_None in E. rewrite (tb_len _ _ T) in E. lia.
Qed.
Lemma at_length (m : Mesh rv) cs k i c : tables m cs -> (1 <= k)%nat -> at_ cs k i = Some c -> length c = m_dim m.
Proof.
  intros T Hk. unfold at_. destruct (nth_error cs (k - 1)) as [tab|] eqn:E; [|discriminate]. intros H.
  apply (proj2 (tb_tab _ _ T _ _ E)). eapply nth_error_In. eassumption.
Qed.
Lemma centerAt_ok (cs : list (list rv)) k i c : centerAt (K := numR) cs k i = Ok c <-> at_ cs k i = Some c.
Proof.
  unfold centerAt, at_. rewrite vidx_ok. destruct (nth_error cs (k - 1)) as [tab|] eqn:E.
  - nr. rewrite (nth_error_nth _ _ [] E). reflexivity.
  - apply nth_error_None in E. nr. rewrite nth_overflow by assumption. destruct (N.to_nat i); split; discriminate.
Qed.

(** * Frames *)
Lemma frame_get (m : Mesh rv) cs k i ps : frame m cs k i ps -> getCenters (K := numR) m cs k i = Ok ps.
Proof.
  induction 1 as [e a b Hab|k i c j js ps Hk Hc Hs Hf IH].
  - apply ends_edge in Hab. cbn [getCenters]. nr. rewrite Hab. reflexivity.
  - destruct k as [|k]; [lia|]. apply centerAt_ok in Hc. cbn [getCenters] in *. nr. rewrite Hc. cbn [bind].
    rewrite Hs. cbn [unchecked bind]. change (vidx (j :: js) 0) with (Ok j). cbn [bind].
    refine (eq_trans (f_equal (fun o => bind o _) IH) _). reflexivity.
Qed.
Lemma frame_det (m : Mesh rv) cs k i ps ps' : frame m cs k i ps -> frame m cs k i ps' -> ps = ps'.
Proof. intros H H'. apply frame_get in H, H'. rewrite H in H'. injection H'. auto. Qed.
Lemma frame_len (m : Mesh rv) cs k i ps : geo_mesh m -> tables m cs -> frame m cs k i ps ->
  lens (m_dim m) ps /\ length ps = S k.
Proof.
  intros G T. induction 1 as [e a b Hab|k i c j js ps Hk Hc Hs Hf [IH1 IH2]].
  - destruct (edge_points_length _ _ _ _ G Hab). split; [|reflexivity]. repeat constructor; assumption.
  - split; [|simpl; congruence]. constructor; [|assumption]. eapply (at_length m cs (S k)); [assumption|lia|eassumption].
Qed.
Lemma frame_total (m : Mesh rv) cs : geo_mesh m -> no_empty m -> tables m cs -> forall k i, (1 <= k < m_dim m)%nat ->
  (i < N.of_nat (n_elems m k))%N -> exists ps, frame m cs k i ps.
Proof.
  intros G HN T. induction k as [|k IH]; intros i Hk Hi; [lia|]. destruct k as [|k].
  - destruct (edge_points_total m i G Hi) as (a & b & Hab). exists [a; b]. constructor. assumption.
  - destruct (tab_at m cs (S (S k)) i T ltac:(lia) Hi) as (c & Hc).
    destruct (children_total m (S (S k)) i (geo_wf _ G) ltac:(lia) Hi) as (js & Hj).
    assert (Hkk : (1 <= S (S k) <= m_dim m)%nat) by lia. pose proof (fun j => children_lt m (S (S k)) i js j (geo_wf _ G) Hkk Hj) as Hlt.
    pose proof (children_nonempty m (S (S k)) _ _ HN ltac:(lia) Hj) as Hne. destruct js as [|j js]; [congruence|].
    destruct (IH j) as (ps & Hps); [lia| |].
    { specialize (Hlt j (or_introl eq_refl)). replace (S (S k) - 1)%nat with (S k) in Hlt by lia. exact Hlt. }
    exists (c :: ps). eapply fr_up; [lia|eassumption| |eassumption].
    unfold children in Hj. destruct (Nat.eqb_spec (S (S k)) (m_dim m)); [lia|]. exact Hj.
Qed.

(** * Gram-Schmidt on a frame *)
Lemma lastOf_snoc {A} (l : list A) a : lastOf (l ++ [a]) = Ok a.
Proof.
  unfold lastOf. apply vidx_ok. rewrite app_length. cbn [length].
  replace (N.to_nat (N.of_nat (length l + 1) - 1)) with (length l) by lia.
  rewrite nth_error_app2, Nat.sub_diag by lia. reflexivity.
Qed.
Lemma gsn_total (vs : list rv) (w : rv) : exists es e ns h, gramSchmidtN (K := numR) (vs ++ [w]) = Ok (es ++ [e], ns ++ [h]).
Proof.
  destruct (vs ++ [w]) as [|v0 r0] eqn:E; [destruct vs; discriminate|]. rewrite gsn_start, <- E, gs_loop_app, gs_loop_eq.
  cbn [gs_loop]. rewrite !map_app. cbn [map]. eauto 6.
Qed.
Lemma frameVecs_eq (p0 : rv) r x : frameVecs (K := numR) (p0 :: r) x = Ok (map (fun p => diff p p0) r ++ [diff x p0]).
Proof. unfold frameVecs. f_equal. rewrite vsub_diff. f_equal. apply map_ext. intros. apply vsub_diff. Qed.

(** * Normals *)
Lemma normalN_ok (m : Mesh rv) cs f face x (l : bool) i ps : geo_mesh m -> tables m cs -> (2 <= m_dim m)%nat ->
  nth_error (m_faces m) (N.to_nat f) = Some face -> side_cell (f_conn face) = (i, l) -> vat (nth (m_dim m - 1) cs []) i = Ok x ->
  length x = m_dim m -> frame m cs (m_dim m - 1) f ps ->
  exists n, normalN (K := numR) m cs f = Ok n /\
    (aff_indep (m_dim m) (ps ++ [x]) -> exists q, foot (m_dim m) ps x q /\ dist x q <> 0 /\
       n = vscale (K := numR) (vscale (K := numR) (diff x q) (/ dist x q)) (if l then 1 else -1)).
Proof.
  intros G T D Hf Hs Hx Lx Hp. destruct (frame_len _ _ _ _ _ G T Hp) as [HL Hlen].
  destruct ps as [|p0 r]; [discriminate|].
  destruct (gsn_total (map (fun p => diff p p0) r) (diff x p0)) as (es & e & ns & h & E).
  exists (scalev (K := numR) (sign_of (K := numR) l) e). split.
  - unfold normalN. apply vat_ok in Hf. nr. rewrite Hf. cbn [bind]. rewrite Hs. nr. rewrite Hx. cbn [bind].
    pose proof (frame_get _ _ _ _ _ Hp) as Eg. refine (eq_trans (f_equal (fun o => bind o _) Eg) _). cbn [bind].
    pose proof (frameVecs_eq p0 r x) as Ev. refine (eq_trans (f_equal (fun o => bind o _) Ev) _). cbn [bind].
    refine (eq_trans (f_equal (fun o => bind o _) E) _). cbn [bind fst]. nr.
    refine (eq_trans (f_equal (fun o => bind o _) (lastOf_snoc es e)) _). reflexivity.
  - intros HI. destruct (app_indep _ _ _ HL HI) as [HI' Nx].
    destruct (gs_foot (m_dim m) p0 r x HL Lx HI') as (q & es' & ns' & k & Hq & E').
    exists q. split; [exact Hq|]. pose proof (foot_pos _ _ _ _ Lx Hq Nx) as P. split.
    { unfold dist. intros Z. apply P. apply sqrt_eq_0; [apply sprod_nonneg|exact Z]. }
    rewrite E in E'. apply (f_equal (fun o => match o with Ok z => last (fst z) [] | _ => [] end)) in E'. cbn beta iota in E'.
    unfold fst in E' at 1 2. rewrite !last_last in E'. rewrite E'.
    unfold nz, gsn_one. cbn [fst]. unfold vdiv, scalev. cbn [ndiv none_ numR].
    replace (normEuclid (K := numR) (diff x q)) with (dist x q) by (rewrite <- (norm_dist x q), vsub_diff; reflexivity).
    replace (1 / dist x q) with (/ dist x q) by (unfold Rdiv; ring). destruct l; reflexivity.
Qed.

(** * Measures *)
Definition Nlook (tab : list R) (j : N) (v : R) : Prop := nth_error tab (N.to_nat j) = Some v.
Lemma ofNat_INR k : ofNat (K := numR) k = INR k.
Proof. induction k as [|k IH]; [reflexivity|]. cbn [ofNat]. rewrite IH, S_INR. reflexivity. Qed.

(** Height of x over the points of the element j, as far as it is determined. *)
Definition over m cs (k : nat) (x : point) (j : N) (h : R) : Prop :=
  forall ps, frame m cs k j ps -> aff_indep (m_dim m) ps -> height (m_dim m) ps x h.

Lemma measure_step_ok (m : Mesh rv) cs k sub x i j mu : geo_mesh m -> no_empty m -> tables m cs -> (2 <= k <= m_dim m)%nat ->
  length x = m_dim m -> (j < N.of_nat (n_elems m (k - 1)))%N -> Nlook sub j mu ->
  exists h, over m cs (k - 1) x j h /\ forall s : R, measure_step (K := numR) m cs k sub x s (i, j) = Ok (s + h * mu).
Proof.
  intros G HN T Hk Lx Hj Hmu. destruct (frame_total m cs G HN T (k - 1) j ltac:(lia) Hj) as (ps & Hp).
  destruct (frame_len _ _ _ _ _ G T Hp) as [HL Hlen]. destruct ps as [|p0 r]; [discriminate|].
  destruct (gsn_total (map (fun p => diff p p0) r) (diff x p0)) as (es & e & ns & h & E). exists h. split.
  - intros ps' Hp' HI. rewrite (frame_det _ _ _ _ _ _ Hp' Hp) in *.
    destruct (gs_foot (m_dim m) p0 r x HL Lx HI) as (q & es' & ns' & kk & Hq & E'). exists q. split; [exact Hq|].
    rewrite E in E'. apply (f_equal (fun o => match o with Ok z => last (snd z) 0 | _ => 0 end)) in E'. cbn beta iota in E'.
    unfold snd in E' at 1 2. rewrite !last_last in E'. exact E'.
  - intros s. unfold measure_step. cbn [snd].
    refine (eq_trans (f_equal (fun o => bind o _) (frame_get _ _ _ _ _ Hp)) _). cbn [bind].
    refine (eq_trans (f_equal (fun o => bind o _) (frameVecs_eq p0 r x)) _). cbn [bind].
    refine (eq_trans (f_equal (fun o => bind o _) E) _). cbn [bind snd].
    refine (eq_trans (f_equal (fun o => bind o _) (lastOf_snoc ns h)) _). cbn [bind].
    unfold Nlook in Hmu. apply vidx_ok in Hmu. refine (eq_trans (f_equal (fun o => bind o _) Hmu) _). reflexivity.
Qed.
Lemma Nlookups (tab : list R) n js : length tab = n -> (forall j, In j js -> (j < N.of_nat n)%N) -> exists ps, Forall2 (Nlook tab) js ps.
Proof.
  intros L. induction js as [|j js IH]; intros H; [exists []; constructor|].
  destruct IH as (ps & HF); [intros; apply H; right; assumption|].
  destruct (nth_error tab (N.to_nat j)) as [p|] eqn:E; [exists (p :: ps); constructor; assumption|].
  apply nth_error_None in E. specialize (H j (or_introl eq_refl)). lia.
Qed.
Definition psum (hs mus : list R) : R := Rsum (map (fun p => fst p * snd p) (combine hs mus)).
Lemma measure_fold_ok (m : Mesh rv) cs k sub x i js mus : geo_mesh m -> no_empty m -> tables m cs -> (2 <= k <= m_dim m)%nat ->
  length x = m_dim m -> (forall j, In j js -> (j < N.of_nat (n_elems m (k - 1)))%N) -> Forall2 (Nlook sub) js mus ->
  exists hs, Forall2 (over m cs (k - 1) x) js hs /\
    forall s : R, foldM (measure_step (K := numR) m cs k sub x) (map (fun j => (i, j)) js) s = Ok (s + psum hs mus).
Proof.
  intros G HN T Hk Lx Hlt HF. induction HF as [|j mu js mus Hj HF IH].
  - exists []. split; [constructor|]. intros s. cbn [map foldM]. unfold psum. cbn. f_equal. ring.
  - destruct IH as (hs & H1 & H2); [intros; apply Hlt; right; assumption|].
    destruct (measure_step_ok m cs k sub x i j mu G HN T Hk Lx (Hlt j (or_introl eq_refl)) Hj) as (h & Hh & Es).
    exists (h :: hs). split; [constructor; assumption|]. intros s. cbn [map foldM].
    refine (eq_trans (f_equal (fun o => bind o _) (Es s)) _). cbn [bind]. etransitivity; [apply H2|]. f_equal. unfold psum. cbn [combine map Rsum fst snd]. ring.
Qed.

Definition mlevel (m : Mesh rv) cs (k : nat) (sub tab : list R) : Prop :=
  length tab = n_elems m k /\
  forall i js x V, children m k i js -> at_ cs k i = Some x -> Nlook tab i V ->
    exists hs mus, Forall2 (over m cs (k - 1) x) js hs /\ Forall2 (Nlook sub) js mus /\ V = psum hs mus / INR k.
Lemma measure_level_ok (m : Mesh rv) cs k sub : geo_mesh m -> no_empty m -> tables m cs -> (2 <= k <= m_dim m)%nat ->
  length sub = n_elems m (k - 1) -> exists tab, measure_level (K := numR) m cs k sub = Ok tab /\ mlevel m cs k sub tab.
Proof.
  intros G HN T Hk Ls. unfold measure_level.
  match goal with |- context [mapM ?f _] => destruct (table_ok f
    (fun i V => exists js x hs mus, children m k i js /\ at_ cs k i = Some x /\ Forall2 (over m cs (k - 1) x) js hs /\ Forall2 (Nlook sub) js mus /\ V = psum hs mus / INR k)
    (n_elems m k)) as (tab & E & L & H & _) end.
  { intros i Hi. destruct (children_total m k i (geo_wf _ G) ltac:(lia) Hi) as (js & Hc).
    destruct (tab_at m cs k i T ltac:(lia) Hi) as (x & Hx). pose proof (at_length m cs k i x T ltac:(lia) Hx) as Lx.
    assert (Hlt : forall j, In j js -> (j < N.of_nat (n_elems m (k - 1)))%N).
    { intros j Hj. eapply children_lt; [apply G| |eassumption|eassumption]. lia. }
    destruct (Nlookups sub _ js Ls Hlt) as (mus & HM).
    destruct (measure_fold_ok m cs k sub x i js mus G HN T Hk Lx Hlt HM) as (hs & HH & EF).
    exists (psum hs mus / INR k). split; [|exists js, x, hs, mus; auto].
    pose proof (apply1_children m k i js ltac:(lia) Hc) as Ea. nr. rewrite Ea. cbn [bind].
    apply centerAt_ok in Hx. refine (eq_trans (f_equal (fun o => bind o _) Hx) _). cbn [bind].
    refine (eq_trans (f_equal (fun o => bind o _) (EF 0)) _). cbn [bind]. f_equal. rewrite ofNat_INR. cbn [nmul ndiv none_ numR].
    assert (INR k <> 0) by (apply not_0_INR; lia). nr. field. assumption. }
  exists tab. split; [exact E|]. split; [exact L|]. intros i js x V Hc Hx HV.
  destruct (H i V HV) as (js' & x' & hs & mus & Hc' & Hx' & H1 & H2 & H3).
  rewrite (children_det _ _ _ _ _ Hc Hc'). assert (x = x') by congruence. subst x'. exists hs, mus. auto.
Qed.
Fixpoint mlevels (m : Mesh rv) cs (k : nat) (sub : list R) (tabs : list (list R)) : Prop :=
  match tabs with [] => True | t :: r => mlevel m cs k sub t /\ mlevels m cs (S k) t r end.
Lemma measure_levels_ok (m : Mesh rv) cs : geo_mesh m -> no_empty m -> tables m cs ->
  forall steps k sub, (2 <= k)%nat -> (k + steps = S (m_dim m))%nat -> length sub = n_elems m (k - 1) ->
  exists tabs, measure_levels (K := numR) m cs steps k sub = Ok tabs /\ length tabs = steps /\ mlevels m cs k sub tabs.
Proof.
  intros G HN T. induction steps as [|s IH]; intros k sub Hk Ek Ls.
  - exists []. repeat split.
  - destruct (measure_level_ok m cs k sub G HN T ltac:(lia) Ls) as (tab & E & Hl).
    destruct (IH (S k) tab) as (tabs & E' & L' & H'); [lia|lia|replace (S k - 1)%nat with k by lia; apply Hl|].
    exists (tab :: tabs). split; [|split; [simpl; cc|split; assumption]].
    cbn [measure_levels]. refine (eq_trans (f_equal (fun o => bind o _) E) _). cbn [bind].
    refine (eq_trans (f_equal (fun o => bind o _) E') _). reflexivity.
Qed.
Lemma mlevels_nth m cs tabs : forall k sub, mlevels m cs k sub tabs -> forall j sub' tab,
  nth_error (sub :: tabs) j = Some sub' -> nth_error tabs j = Some tab -> mlevel m cs (k + j) sub' tab.
Proof.
  induction tabs as [|t r IH]; intros k sub H j sub' tab Hs Ht; [destruct j; discriminate|].
  destruct H as [H1 H2]. destruct j as [|j].
  - injection Hs as <-. injection Ht as <-. rewrite Nat.add_0_r. assumption.
  - simpl in Hs, Ht. replace (k + S j)%nat with (S k + j)%nat by lia. eapply IH; eassumption.
Qed.
Lemma edge_lengths_ok (m : Mesh rv) : geo_mesh m -> exists l, edge_lengths (K := numR) m = Ok l /\ length l = n_elems m 1 /\
  forall e a b V, edge_points m e a b -> Nlook l e V -> V = dist a b.
Proof.
  intros G. unfold edge_lengths.
  match goal with |- context [mapM ?f _] => destruct (table_ok f (fun e V => exists a b, edge_points m e a b /\ V = dist a b) (n_elems m 1)) as (tab & E & L & H & _) end.
  { intros e He. destruct (edge_points_total m e G He) as (a & b & Hab). exists (dist a b). split; [|eauto].
    apply ends_edge in Hab. refine (eq_trans (f_equal (fun o => bind o _) Hab) _). cbn [bind fst snd]. f_equal. apply norm_dist. }
  exists tab. split; [exact E|]. split; [exact L|]. intros e a b V Hab HV. destruct (H e V HV) as (a' & b' & Hab' & ->).
  destruct (edge_points_det _ _ _ _ _ _ Hab Hab') as [-> ->]. reflexivity.
Qed.
(** What all the tables satisfy. *)
Definition measured m cs (ms : list (list R)) : Prop :=
  length ms = m_dim m /\
  (forall k tab, nth_error ms k = Some tab -> length tab = n_elems m (S k)) /\
  (forall e a b V, edge_points m e a b -> at_ ms 1 e = Some V -> V = dist a b) /\
  (forall k i js x V, (2 <= k <= m_dim m)%nat -> children m k i js -> at_ cs k i = Some x -> at_ ms k i = Some V ->
     exists hs mus, Forall2 (over m cs (k - 1) x) js hs /\ Forall2 (fun j mu => at_ ms (k - 1) j = Some mu) js mus /\ V = psum hs mus / INR k).
Lemma measures_ok (m : Mesh rv) cs : geo_mesh m -> no_empty m -> tables m cs ->
  exists ms, computeMeasuresN (K := numR) m cs = Ok ms /\ measured m cs ms.
Proof.
  intros G HN T. pose proof (wf_dim _ (geo_wf _ G)) as HD. destruct (edge_lengths_ok m G) as (e & E & Le & He).
  destruct (measure_levels_ok m cs G HN T (m_dim m - 1) 2 e) as (tabs & E' & L' & H'); [lia|lia|exact Le|].
  exists (e :: tabs). split; [|split; [simpl; ll|split; [|split]]].
  - unfold computeMeasuresN. refine (eq_trans (f_equal (fun o => bind o _) E) _). cbn [bind].
    refine (eq_trans (f_equal (fun o => bind o _) E') _). reflexivity.
  - intros [|k] tab Hk; [injection Hk as <-; assumption|]. simpl in Hk.
    assert (Hs : exists s, nth_error (e :: tabs) k = Some s).
    { destruct (nth_error (e :: tabs) k) eqn:Ee; [eauto|]. apply nth_error_None in Ee. simpl in Ee.
      assert (k < length tabs)%nat by (apply nth_error_Some; cc). ll. }
    destruct Hs as (s & Hs). apply (mlevels_nth m cs tabs 2 e H' k s tab Hs Hk).
  - intros i a b V Hab HV. eapply He; [eassumption|exact HV].
  - intros k i js x V Hk Hc Hx HV. unfold at_ in HV. nr. destruct (nth_error (e :: tabs) (k - 1)) as [tab|] eqn:Et; [|discriminate].
    destruct k as [|[|k]]; try ll. replace (S (S k) - 1)%nat with (S k) in * by lia. simpl in Et.
    assert (Hs : exists s, nth_error (e :: tabs) k = Some s).
    { destruct (nth_error (e :: tabs) k) eqn:Ee; [eauto|]. apply nth_error_None in Ee. simpl in Ee.
      assert (k < length tabs)%nat by (apply nth_error_Some; cc). ll. }
    destruct Hs as (s & Hs). destruct (mlevels_nth m cs tabs 2 e H' k s tab Hs Et) as [_ H].
    destruct (H i js x V) as (hs & mus & H1 & H2 & H3); [exact Hc|exact Hx|exact HV|].
    exists hs, mus. split; [|split].
    + change (2 + k - 1)%nat with (S k) in H1. exact H1.
    + eapply Forall2_mono; [|exact H2]. intros j p Hj. unfold at_. replace (S k - 1)%nat with k by ll. rewrite Hs. exact Hj.
    + exact H3.
Qed.

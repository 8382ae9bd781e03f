(** Proofs about similarity transformations of meshes. *)
From Coq Require Import Reals Lra.
From Verif Require Import P_Base M_Conn M_Index M_Mesh M_Apply S_Mesh M_Vec S_Vec P_Vec M_Geom M_GeomN S_Geom P_Geom S_Similar.
Local Open Scope R_scope.

(** ** Related outcomes *)
Lemma both_bind {A B C D} (P : A -> B -> Prop) (Q : C -> D -> Prop) x y (g : A -> outcome C) (h : B -> outcome D) :
  both P x y -> (forall a b, P a b -> both Q (g a) (h b)) -> both Q (bind x g) (bind y h).
Proof. destruct x, y; cbn; try contradiction; auto. Qed.
Lemma both_mono {A B} (P Q : A -> B -> Prop) x y : (forall a b, P a b -> Q a b) -> both P x y -> both Q x y.
Proof. destruct x, y; cbn; auto. Qed.
Lemma both_refl {A} (x : outcome A) : both eq x x.
Proof. destruct x; cbn; auto. Qed.
Lemma both_eq {A} (x y : outcome A) : both eq x y -> x = y.
Proof. destruct x, y; cbn; try contradiction; congruence. Qed.
Lemma both_same {A C D} (Q : C -> D -> Prop) (x : outcome A) (g : A -> outcome C) (h : A -> outcome D) :
  (forall a, x = Ok a -> both Q (g a) (h a)) -> both Q (bind x g) (bind x h).
Proof. destruct x; cbn; auto. Qed.
Lemma both_mapM {I A B} (Q : A -> B -> Prop) (g : I -> outcome A) (h : I -> outcome B) l :
  (forall i, In i l -> both Q (g i) (h i)) -> both (Forall2 Q) (mapM g l) (mapM h l).
Proof.
  induction l as [|i l IH]; intros H; cbn [mapM]; [constructor|].
  eapply both_bind; [apply H; now left|]. intros a b Hab. eapply both_bind; [apply IH; intros; apply H; now right|].
  intros x y Hxy. cbn. now constructor.
Qed.
Lemma both_foldM {I A B} (Q : A -> B -> Prop) (g : A -> I -> outcome A) (h : B -> I -> outcome B) l :
  (forall i a b, In i l -> Q a b -> both Q (g a i) (h b i)) -> forall a b, Q a b -> both Q (foldM g l a) (foldM h l b).
Proof.
  induction l as [|i l IH]; intros H a b Hab; cbn [foldM]; [exact Hab|].
  eapply both_bind; [apply H; [now left|exact Hab]|]. apply IH. intros; apply H; [now right|assumption].
Qed.
Lemma Forall2_nth_both {A B} (Q : A -> B -> Prop) l l' : Forall2 Q l l' -> forall n, match nth_error l n, nth_error l' n with Some a, Some b => Q a b | None, None => True | _, _ => False end.
Proof. intros H. induction H as [|a b l l' Hab H IH]; intros [|n]; cbn; auto. apply IH. Qed.
Lemma both_vat {A B} (Q : A -> B -> Prop) l l' i : Forall2 Q l l' -> both Q (vat l i) (vat l' i).
Proof.
  intros H. unfold vat. rewrite (Forall2_length' _ _ _ H). destruct (_ <? _)%N; [|exact I].
  pose proof (Forall2_nth_both _ _ _ H (N.to_nat i)) as G. destruct (nth_error l _), (nth_error l' _); cbn; auto.
Qed.
Lemma both_vidx {A B} (Q : A -> B -> Prop) l l' i : Forall2 Q l l' -> both Q (vidx l i) (vidx l' i).
Proof.
  intros H. unfold vidx. rewrite (Forall2_length' _ _ _ H). destruct (_ <? _)%N; [|exact I].
  pose proof (Forall2_nth_both _ _ _ H (N.to_nat i)) as G. destruct (nth_error l _), (nth_error l' _); cbn; auto.
Qed.
Lemma both_do_while {X Y} (Q : X -> Y -> Prop) g h start : (forall c, both (fun x y => Q (fst x) (fst y) /\ snd x = snd y) (g c) (h c)) ->
  forall n c, both (Forall2 Q) (do_while n g start c) (do_while n h start c).
Proof.
  intros H. induction n as [|n IH]; intros c; cbn [do_while]; [exact I|].
  eapply both_bind; [apply H|]. intros [x i] [y j] [Hxy E]. cbn [fst snd] in *. subst j.
  destruct (N.eqb i start); [cbn; constructor; [exact Hxy|constructor]|].
  eapply both_bind; [apply IH|]. intros a b Hab. cbn. now constructor.
Qed.
Lemma both_ring {X Y} (Q : X -> Y -> Prop) (m m' : Mesh point) c (g : N -> outcome X) (h : N -> outcome Y) :
  m_faces m' = m_faces m -> m_cells m' = m_cells m -> (forall i, both Q (g i) (h i)) -> both (Forall2 Q) (ring_walk m c g) (ring_walk m' c h).
Proof.
  intros EF EC H. unfold ring_walk. rewrite EF, EC. eapply both_bind; [apply both_refl|]. intros b ? <-.
  apply both_do_while. intros i. unfold ring_step. rewrite EF. eapply both_bind; [apply H|]. intros x y Hxy.
  eapply both_bind; [apply both_refl|]. intros f ? <-. eapply both_bind; [apply both_refl|]. intros n ? <-. cbn. auto.
Qed.

(** ** Topology *)
Section Image.
Variable (f : point -> point) (m : Mesh point).
Lemma image_subs k i : subs (image f m) k i = subs m k i.
Proof. reflexivity. Qed.
Lemma image_n_elems k : n_elems (image f m) k = n_elems m k.
Proof. unfold n_elems. cbn. now rewrite map_length. Qed.
Lemma image_run steps : forall cur i, run (image f m) steps cur i = run m steps cur i.
Proof.
  induction steps as [|k IH]; intros cur i; cbn [run]; [reflexivity|]. rewrite image_subs. change (m_dim (image f m)) with (m_dim m).
  destruct (cur =? m_dim m)%nat.
  - f_equal. apply both_eq. eapply both_mono; [|apply (both_ring eq m (image f m)); [reflexivity|reflexivity|]].
    + intros a b H. clear - H. induction H; congruence.
    + intros j. rewrite IH. apply both_refl.
  - destruct (subs m cur i); try reflexivity. cbn [bind]. f_equal. induction a as [|j l IHl]; [reflexivity|]. cbn [mapM]. now rewrite IH, IHl.
Qed.
Lemma image_apply1 s t i : apply1 (image f m) s t i = apply1 m s t i.
Proof. unfold apply1. now rewrite image_run. Qed.
End Image.

(** ** A similarity is a translation after an orthogonal map and a scaling *)
Notation va := (vadd (K := numR)).
Notation vs := (vsub (K := numR)).
Notation vk := (vscale (K := numR)).
Record isom (d : nat) (Q : rv -> rv) : Prop := {
  q_len : forall v, length v = d -> length (Q v) = d;
  q_dot : forall u v, length u = d -> length v = d -> sprod (Q u) (Q v) = sprod u v;
  q_add : forall u v, length u = d -> length v = d -> Q (va u v) = va (Q u) (Q v);
  q_scale : forall v (a : R), length v = d -> Q (vk v a) = vk (Q v) a
}.

Lemma sprod_vsub_r (u v w : rv) : length u = length v -> sprod w (vs u v) = sprod w u - sprod w v.
Proof. intros H. rewrite sprod_comm, sprod_vsub_l by exact H. now rewrite !(sprod_comm w). Qed.
Lemma sprod_vadd_r (u v w : rv) : length u = length v -> sprod w (va u v) = sprod w u + sprod w v.
Proof. intros H. rewrite sprod_comm, sprod_vadd_l by exact H. now rewrite !(sprod_comm w). Qed.
Lemma sprod_vscale_r (v : rv) (a : R) (w : rv) : sprod w (vk v a) = a * sprod w v.
Proof. rewrite sprod_comm, sprod_vscale_l. now rewrite (sprod_comm w). Qed.
Lemma vsub_zero_eq (u v : rv) : length u = length v -> sprod (vs u v) (vs u v) = 0 -> u = v.
Proof.
  intros L H. apply nth_ext_R; [exact L|]. intros i Hi. apply sprod_zero_inv in H.
  assert (E : nth i (vs u v) 0 = nth i u 0 - nth i v 0) by (apply (zip_nth Rminus); ll).
  rewrite H, nth_repeat in E. lra.
Qed.
Lemma dist_sq (p q : rv) : dist p q * dist p q = sprod (vs p q) (vs p q).
Proof. unfold dist. rewrite <- vsub_diff. apply sqrt_sqrt, sprod_nonneg. Qed.
Lemma vadd_len (u v : rv) d : length u = d -> length v = d -> length (va u v) = d.
Proof. intros H1 H2. exact (eq_trans (vadd_length u v (eq_trans H1 (eq_sym H2))) H1). Qed.
Lemma vsub_len (u v : rv) d : length u = d -> length v = d -> length (vs u v) = d.
Proof. intros H1 H2. exact (eq_trans (vsub_length u v (eq_trans H1 (eq_sym H2))) H1). Qed.
Lemma vscale_len (v : rv) (a : R) d : length v = d -> length (vk v a) = d.
Proof. intros H1. exact (eq_trans (vscale_length v a) H1). Qed.
Lemma nth_va (u v : rv) i d : length u = d -> length v = d -> nth i (va u v) 0 = nth i u 0 + nth i v 0.
Proof.
  intros H1 H2. destruct (Nat.lt_ge_cases i d) as [H|H]; [apply (zip_nth Rplus); ll|].
  pose proof (vadd_len u v d H1 H2) as H3. rewrite (nth_overflow u), (nth_overflow v), (nth_overflow (va u v)) by ll. lra.
Qed.
Lemma nth_vs (u v : rv) i d : length u = d -> length v = d -> nth i (vs u v) 0 = nth i u 0 - nth i v 0.
Proof.
  intros H1 H2. destruct (Nat.lt_ge_cases i d) as [H|H]; [apply (zip_nth Rminus); ll|].
  pose proof (vsub_len u v d H1 H2) as H3. rewrite (nth_overflow u), (nth_overflow v), (nth_overflow (vs u v)) by ll. lra.
Qed.
Lemma vec_ext d (u v : rv) : length u = d -> length v = d -> (forall i, nth i u 0 = nth i v 0) -> u = v.
Proof. intros H1 H2 H. apply nth_ext_R; [congruence|]. intros i _. apply H. Qed.

Lemma sub_l d (u v w : rv) : length u = d -> length v = d -> sprod (vs u v) w = sprod u w - sprod v w.
Proof. intros H1 H2. apply sprod_vsub_l. exact (eq_trans H1 (eq_sym H2)). Qed.
Lemma sub_r d (u v w : rv) : length u = d -> length v = d -> sprod w (vs u v) = sprod w u - sprod w v.
Proof. intros H1 H2. apply sprod_vsub_r. exact (eq_trans H1 (eq_sym H2)). Qed.
Lemma add_l d (u v w : rv) : length u = d -> length v = d -> sprod (va u v) w = sprod u w + sprod v w.
Proof. intros H1 H2. apply sprod_vadd_l. exact (eq_trans H1 (eq_sym H2)). Qed.
Lemma add_r d (u v w : rv) : length u = d -> length v = d -> sprod w (va u v) = sprod w u + sprod w v.
Proof. intros H1 H2. apply sprod_vadd_r. exact (eq_trans H1 (eq_sym H2)). Qed.
Lemma sim_linear d s f : 0 < s -> similarity d s f ->
  exists Q, isom d Q /\ forall p q, length p = d -> length q = d -> vs (f p) (f q) = vk (Q (vs p q)) s.
Proof.
  intros Hs [SL SD]. set (o := repeat 0 d). assert (Lo : length o = d) by apply repeat_length.
  set (Q := fun v => vk (vs (f v) (f o)) (/ s)).
  assert (QL : forall v, length v = d -> length (Q v) = d).
  { intros v Hv. unfold Q. apply vscale_len, vsub_len; apply SL; assumption. }
  assert (QS : forall u v, length u = d -> length v = d -> sprod (vs (Q u) (Q v)) (vs (Q u) (Q v)) = sprod (vs u v) (vs u v)).
  { intros u v Hu Hv. assert (E : vs (Q u) (Q v) = vk (vs (f u) (f v)) (/ s)).
    { pose proof (SL u Hu). pose proof (SL v Hv). pose proof (SL o Lo). apply (vec_ext d); [apply vsub_len; auto|apply vscale_len, vsub_len; auto|].
      intros i. rewrite (nth_vs _ _ i d) by auto. unfold Q. rewrite !vscale_nth, !(nth_vs _ _ i d) by auto. ring. }
    rewrite E, sprod_vscale_l, sprod_vscale_r, <- !dist_sq, SD by assumption. field. lra. }
  assert (Q0 : Q o = o).
  { apply (vec_ext d); [apply QL, Lo|exact Lo|]. intros i. unfold Q. rewrite vscale_nth, (nth_vs _ _ i d) by (apply SL, Lo). unfold o. rewrite nth_repeat. ring. }
  assert (S0 : forall v, length v = d -> vs v o = v).
  { intros v Hv. apply (vec_ext d); [apply vsub_len; assumption|exact Hv|]. intros i. rewrite (nth_vs _ _ i d) by assumption. unfold o. rewrite nth_repeat. ring. }
  assert (QN : forall v, length v = d -> sprod (Q v) (Q v) = sprod v v).
  { intros v Hv. pose proof (QS v o Hv Lo) as H. rewrite Q0, !S0 in H by (apply QL || assumption; assumption). exact H. }
  assert (QD : forall u v, length u = d -> length v = d -> sprod (Q u) (Q v) = sprod u v).
  { intros u v Hu Hv. pose proof (QS u v Hu Hv) as H. pose proof (QL u Hu) as L1. pose proof (QL v Hv) as L2.
    rewrite !(sub_l d), !(sub_r d), !QN in H by (first [assumption|apply vsub_len; assumption]).
    rewrite (sprod_comm (Q v) (Q u)), (sprod_comm v u) in H. lra. }
  assert (QA : forall u v, length u = d -> length v = d -> Q (va u v) = va (Q u) (Q v)).
  { intros u v Hu Hv. pose proof (QL u Hu) as L1. pose proof (QL v Hv) as L2. pose proof (vadd_len u v d Hu Hv) as L3. pose proof (QL _ L3) as L4.
    pose proof (vadd_len _ _ d L1 L2) as L5.
    apply vsub_zero_eq; [exact (eq_trans L4 (eq_sym L5))|]. rewrite (sub_l d) by assumption. rewrite !(sub_r d) by assumption.
    rewrite !(add_l d) by assumption. rewrite !(add_r d) by assumption. rewrite !QD by assumption.
    rewrite !(add_l d) by assumption. rewrite !(add_r d) by assumption. rewrite (sprod_comm v u). ring. }
  assert (QK : forall v (a : R), length v = d -> Q (vk v a) = vk (Q v) a).
  { intros v a Hv. pose proof (QL v Hv) as L1. pose proof (vscale_len v a d Hv) as L2. pose proof (QL _ L2) as L3. pose proof (vscale_len _ a d L1) as L4.
    apply vsub_zero_eq; [exact (eq_trans L3 (eq_sym L4))|]. rewrite (sub_l d) by assumption. rewrite !(sub_r d) by assumption.
    rewrite !sprod_vscale_l, !sprod_vscale_r, !QD by assumption. rewrite !sprod_vscale_l, !sprod_vscale_r. ring. }
  exists Q. split; [constructor; assumption|]. intros p q Hp Hq.
  assert (E : vs p q = va p (vk q (-1))).
  { apply (vec_ext d); [apply vsub_len; assumption|apply vadd_len; [assumption|apply vscale_len; assumption]|].
    intros i. rewrite (nth_vs _ _ i d), (nth_va _ _ i d), vscale_nth by (first [assumption|apply vscale_len; assumption]). ring. }
  rewrite E, QA, QK by (first [assumption|apply vscale_len; assumption]).
  pose proof (SL p Hp). pose proof (SL q Hq). pose proof (SL o Lo). pose proof (QL p Hp). pose proof (QL q Hq).
  apply (vec_ext d); [apply vsub_len; assumption|apply vscale_len, vadd_len; [assumption|apply vscale_len; assumption]|].
  intros i. rewrite vscale_nth, (nth_vs _ _ i d), (nth_va _ _ i d), vscale_nth by (first [assumption|apply vscale_len; assumption]).
  unfold Q. rewrite !vscale_nth, !(nth_vs _ _ i d) by assumption. field. lra.
Qed.

(** ** The functions of the mesh under a similarity *)
Section Sim.
Variables (d : nat) (s : R) (f : point -> point) (Q : rv -> rv).
Hypothesis Hs : 0 < s.
Hypothesis HL : forall p, length p = d -> length (f p) = d.
Hypothesis HQ : isom d Q.
Hypothesis HF : forall p q, length p = d -> length q = d -> vs (f p) (f q) = vk (Q (vs p q)) s.

Definition Pt (p p' : rv) : Prop := length p = d /\ p' = f p.
Definition Vt (c : R) (v v' : rv) : Prop := length v = d /\ v' = vk (Q v) c.
Definition St (c : R) (x x' : R) : Prop := x' = c * x.

Lemma Vt_len c v v' : Vt c v v' -> length v' = d.
Proof. intros [H ->]. apply vscale_len, (q_len _ _ HQ), H. Qed.
Lemma Vt_sub p q p' q' : Pt p p' -> Pt q q' -> Vt s (vs p q) (vs p' q').
Proof. intros [H ->] [H' ->]. split; [now apply vsub_len|]. now apply HF. Qed.
Lemma Q_sub u v : length u = d -> length v = d -> Q (vs u v) = vs (Q u) (Q v).
Proof.
  intros Hu Hv. assert (E : vs u v = va u (vk v (-1))).
  { apply (vec_ext d); [now apply vsub_len|apply vadd_len; [assumption|now apply vscale_len]|].
    intros i. rewrite (nth_vs _ _ i d), (nth_va _ _ i d), vscale_nth by (first [assumption|apply vscale_len; assumption]). ring. }
  pose proof (q_len _ _ HQ u Hu) as L1. pose proof (q_len _ _ HQ v Hv) as L2.
  rewrite E, (q_add _ _ HQ), (q_scale _ _ HQ) by (first [assumption|apply vscale_len; assumption]).
  apply (vec_ext d); [apply vadd_len; [assumption|now apply vscale_len]|now apply vsub_len|].
  intros i. rewrite (nth_vs _ _ i d), (nth_va _ _ i d), vscale_nth by (first [assumption|apply vscale_len; assumption]). ring.
Qed.
Lemma Vt_vsub c u v u' v' : Vt c u u' -> Vt c v v' -> Vt c (vs u v) (vs u' v').
Proof.
  intros [Hu ->] [Hv ->]. split; [now apply vsub_len|]. rewrite Q_sub by assumption.
  pose proof (q_len _ _ HQ u Hu) as L1. pose proof (q_len _ _ HQ v Hv) as L2.
  apply (vec_ext d); [apply vsub_len; now apply vscale_len|apply vscale_len; now apply vsub_len|].
  intros i. rewrite vscale_nth, !(nth_vs _ _ i d), !vscale_nth by (first [assumption|apply vscale_len; assumption]). ring.
Qed.
Lemma Vt_vadd c u v u' v' : Vt c u u' -> Vt c v v' -> Vt c (va u v) (va u' v').
Proof.
  intros [Hu ->] [Hv ->]. split; [now apply vadd_len|]. rewrite (q_add _ _ HQ) by assumption.
  pose proof (q_len _ _ HQ u Hu) as L1. pose proof (q_len _ _ HQ v Hv) as L2.
  apply (vec_ext d); [apply vadd_len; now apply vscale_len|apply vscale_len; now apply vadd_len|].
  intros i. rewrite vscale_nth, !(nth_va _ _ i d), !vscale_nth by (first [assumption|apply vscale_len; assumption]). ring.
Qed.
Lemma Vt_scale c k v v' (a a' : R) : Vt c v v' -> St k a a' -> Vt (c * k) (vk v a) (vk v' a').
Proof.
  intros [Hv ->] ->. split; [now apply vscale_len|]. rewrite (q_scale _ _ HQ) by assumption.
  pose proof (q_len _ _ HQ v Hv) as L1.
  apply (vec_ext d); [apply vscale_len; now apply vscale_len|apply vscale_len; now apply vscale_len|].
  intros i. rewrite !vscale_nth. ring.
Qed.
Lemma Vt_weak c c' v v' : c = c' -> Vt c v v' -> Vt c' v v'.
Proof. now intros <-. Qed.
Lemma Vt_zero c : Vt c (repeat 0 d) (repeat 0 d).
Proof.
  split; [apply repeat_length|]. pose proof (repeat_length 0 d) as Lo. pose proof (q_scale _ _ HQ (repeat 0 d) 0 Lo) as E.
  pose proof (q_len _ _ HQ _ Lo) as L1.
  assert (E0 : vk (repeat 0 d) 0 = repeat 0 d).
  { apply (vec_ext d); [now apply vscale_len|exact Lo|]. intros i. rewrite vscale_nth, nth_repeat. ring. }
  rewrite E0 in E. rewrite E. apply (vec_ext d); [exact Lo|apply vscale_len; now apply vscale_len|].
  intros i. rewrite !vscale_nth, nth_repeat. ring.
Qed.
Lemma Vt_dot c e u v u' v' : Vt c u u' -> Vt e v v' -> dot (K := numR) u' v' = c * e * dot (K := numR) u v :> R.
Proof. intros [Hu ->] [Hv ->]. rewrite !dot_sprod, sprod_vscale_l, sprod_vscale_r, (q_dot _ _ HQ) by assumption. ring. Qed.
Lemma Vt_norm c v v' : 0 <= c -> Vt c v v' -> St c (normEuclid (K := numR) v) (normEuclid (K := numR) v').
Proof.
  intros Hc H. unfold St, normEuclid, sumOfSquares. rewrite (Vt_dot c c v v v' v' H H).
  change (sqrt (c * c * dot (K := numR) v v) = c * sqrt (dot (K := numR) v v)).
  rewrite sqrt_mult_alt by nra. now rewrite sqrt_square.
Qed.

Lemma St_one x : St 1 x x.
Proof. unfold St. now rewrite Rmult_1_l. Qed.
Lemma St_zero c : St c 0 0.
Proof. unfold St. now rewrite Rmult_0_r. Qed.
Lemma St_add c x y x' y' : St c x x' -> St c y y' -> St c (nadd (n := numR) x y) (nadd (n := numR) x' y').
Proof. unfold St. intros -> ->. cbn. ring. Qed.
Lemma St_mul c k x y x' y' : St c x x' -> St k y y' -> St (c * k) (nmul (n := numR) x y) (nmul (n := numR) x' y').
Proof. unfold St. intros -> ->. cbn. ring. Qed.
Lemma St_div c k x y z x' y' : St c x x' -> St k y y' -> St (c * k) (ndiv (n := numR) (nmul (n := numR) x y) z) (ndiv (n := numR) (nmul (n := numR) x' y') z).
Proof. unfold St. intros -> ->. cbn. unfold Rdiv. ring. Qed.
Lemma St_weak c c' x x' : c = c' -> St c x x' -> St c' x x'.
Proof. now intros <-. Qed.

(** *** The Gram-Schmidt process *)
Lemma gs_subtract_sim B B' C C' v v' : Forall2 (Vt 1) B B' -> Forall2 (St s) C C' -> Vt s v v' ->
  Vt s (gs_subtract (K := numR) B C v) (gs_subtract (K := numR) B' C' v').
Proof.
  intros HB. unfold gs_subtract. revert C C' v v'. induction HB as [|b b' B B' Hb HB IH]; intros C C' v v' HC Hv; [exact Hv|].
  destruct HC as [|c c' C C' Hc HC]; [exact Hv|]. cbn [combine fold_left fst snd]. apply IH; [exact HC|].
  apply Vt_vsub; [exact Hv|]. eapply Vt_weak; [|apply Vt_scale; [exact Hb|exact Hc]]. ring.
Qed.
Lemma gsn_one_sim v v' : Vt s v v' -> Vt 1 (fst (gsn_one (K := numR) v)) (fst (gsn_one (K := numR) v')) /\ St s (snd (gsn_one (K := numR) v)) (snd (gsn_one (K := numR) v')).
Proof.
  intros H. pose proof (Vt_norm s v v' ltac:(lra) H) as Hn. unfold gsn_one. cbn [fst snd]. split; [|exact Hn].
  unfold vdiv. eapply (Vt_weak (s * / s)); [field; lra|]. apply Vt_scale; [exact H|]. unfold St in *. cbn [ndiv none_ numR]. rewrite Hn.
  unfold Rdiv. rewrite Rinv_mult. ring.
Qed.
Lemma gsn_loop_sim todo todo' : Forall2 (Vt s) todo todo' -> forall done done',
  Forall2 (fun a b => Vt 1 (fst a) (fst b) /\ St s (snd a) (snd b)) done done' ->
  Forall2 (fun a b => Vt 1 (fst a) (fst b) /\ St s (snd a) (snd b)) (gsn_loop (K := numR) done todo) (gsn_loop (K := numR) done' todo').
Proof.
  intros H. induction H as [|v v' t t' Hv H IH]; intros done done' HD; [exact HD|].
  cbn [gsn_loop]. apply IH. apply Forall2_app; [exact HD|]. constructor; [|constructor]. apply gsn_one_sim, gs_subtract_sim; [| |exact Hv].
  - clear - HD. induction HD as [|a b l l' [Ha _] HD IHD]; cbn; constructor; assumption.
  - unfold gsn_coef. clear - HD Hv HQ. induction HD as [|a b l l' [Ha _] HD IHD]; cbn [map]; constructor; [|exact IHD].
    unfold St. eapply eq_trans; [exact (Vt_dot s 1 _ _ _ _ Hv Ha)|]. now rewrite Rmult_1_r.
Qed.
Lemma gramSchmidtN_sim l l' : Forall2 (Vt s) l l' ->
  both (fun a b => Forall2 (Vt 1) (fst a) (fst b) /\ Forall2 (St s) (snd a) (snd b)) (gramSchmidtN (K := numR) l) (gramSchmidtN (K := numR) l').
Proof.
  intros H. destruct H as [|v v' l l' Hv H]; [exact I|]. cbn [gramSchmidtN both fst snd].
  assert (G : Forall2 (fun a b => Vt 1 (fst a) (fst b) /\ St s (snd a) (snd b)) (gsn_loop (K := numR) [gsn_one (K := numR) v] l) (gsn_loop (K := numR) [gsn_one (K := numR) v'] l')).
  { apply gsn_loop_sim; [exact H|]. constructor; [now apply gsn_one_sim|constructor]. }
  split; clear - G; induction G as [|a b x y [Ha Hb] G IH]; cbn [map]; constructor; assumption.
Qed.

(** *** Edges *)
Section Mesh.
Variable m : Mesh point.
Hypothesis HV : forall p, In p (m_verts m) -> length p = d.
Notation m' := (image f m).

Lemma verts_sim : Forall2 Pt (m_verts m) (m_verts m').
Proof.
  unfold image. cbn [m_verts]. induction (m_verts m) as [|p l IH]; cbn [map]; constructor.
  - split; [apply HV; now left|reflexivity].
  - apply IH. intros q Hq. apply HV. now right.
Qed.
Lemma edge_pts_sim e : both (fun x y => Pt (fst x) (fst y) /\ Pt (snd x) (snd y)) (edge_pts (K := numR) m e) (edge_pts (K := numR) m' e).
Proof.
  unfold edge_pts. eapply both_bind; [apply (both_refl (ends (K := numR) m e))|]. intros ab ? <-.
  eapply both_bind; [apply both_vat, verts_sim|]. intros a a' Ha. eapply both_bind; [apply both_vat, verts_sim|]. intros b b' Hb.
  cbn. auto.
Qed.
Lemma edge_lengths_sim : both (Forall2 (St s)) (edge_lengths (K := numR) m) (edge_lengths (K := numR) m').
Proof.
  unfold edge_lengths. rewrite image_n_elems. apply both_mapM. intros e _. eapply both_bind; [apply edge_pts_sim|].
  intros x y [Ha Hb]. cbn [both]. apply Vt_norm; [lra|]. now apply Vt_sub.
Qed.

(** *** Centres *)
Definition T : rv := f (repeat 0 d).
(** The image of n points added up. *)
Definition At (n : R) (v v' : rv) : Prop := length v = d /\ v' = va (vk (Q v) s) (vk T n).
Lemma T_len : length T = d.
Proof. apply HL, repeat_length. Qed.
Lemma Pt_At p p' : Pt p p' <-> At 1 p p'.
Proof.
  assert (G : length p = d -> f p = va (vk (Q p) s) (vk T 1)).
  { intros H. pose proof (repeat_length 0 d) as Lo. pose proof (HF p _ H Lo) as E.
    assert (E0 : vs p (repeat 0 d) = p).
    { apply (vec_ext d); [now apply vsub_len|exact H|]. intros i. rewrite (nth_vs _ _ i d), nth_repeat by assumption. ring. }
    rewrite E0 in E. rewrite <- E. pose proof (HL p H). pose proof T_len. unfold T in *.
    apply (vec_ext d); [assumption|apply vadd_len; [now apply vsub_len|now apply vscale_len]|]. intros i.
    rewrite (nth_va _ _ i d), (nth_vs _ _ i d), vscale_nth by (first [assumption|apply vsub_len; assumption|apply vscale_len; assumption]). ring. }
  split; intros [H E]; split; try assumption; now rewrite E, G || rewrite E, <- G.
Qed.
Lemma At_len n v v' : At n v v' -> length v' = d.
Proof. intros [H ->]. apply vadd_len; apply vscale_len; [apply (q_len _ _ HQ), H|apply T_len]. Qed.
Lemma At_add n k u v u' v' : At n u u' -> At k v v' -> At (n + k) (va u v) (va u' v').
Proof.
  intros [Hu ->] [Hv ->]. split; [now apply vadd_len|]. rewrite (q_add _ _ HQ) by assumption.
  pose proof (q_len _ _ HQ u Hu) as L1. pose proof (q_len _ _ HQ v Hv) as L2. pose proof T_len as L3.
  apply (vec_ext d); [repeat (apply vadd_len || apply vscale_len); assumption|repeat (apply vadd_len || apply vscale_len); assumption|].
  intros i. rewrite !(nth_va _ _ i d), !vscale_nth, (nth_va _ _ i d) by (repeat (apply vadd_len || apply vscale_len); assumption). ring.
Qed.
Lemma At_scale n v v' (a : R) : At n v v' -> At (n * a) (vk v a) (vk v' a).
Proof.
  intros [Hv ->]. split; [now apply vscale_len|]. rewrite (q_scale _ _ HQ) by assumption.
  pose proof (q_len _ _ HQ v Hv) as L1. pose proof T_len as L3.
  apply (vec_ext d); [repeat (apply vadd_len || apply vscale_len); assumption|repeat (apply vadd_len || apply vscale_len); assumption|].
  intros i. rewrite vscale_nth, !(nth_va _ _ i d), !vscale_nth by (repeat (apply vadd_len || apply vscale_len); assumption). ring.
Qed.
Lemma At_weak n n' v v' : n = n' -> At n v v' -> At n' v v'.
Proof. now intros <-. Qed.
Lemma At_zero : At 0 (repeat 0 d) (repeat 0 d).
Proof.
  destruct (Vt_zero s) as [L E]. split; [exact L|]. pose proof T_len. rewrite <- E.
  apply (vec_ext d); [exact L|apply vadd_len; [exact L|now apply vscale_len]|]. intros i.
  rewrite (nth_va _ _ i d), vscale_nth, nth_repeat by (first [assumption|now apply vscale_len]). ring.
Qed.

Lemma edge_centers_sim : both (Forall2 Pt) (edge_centers (K := numR) m) (edge_centers (K := numR) m').
Proof.
  unfold edge_centers. rewrite image_n_elems. apply both_mapM. intros e _. eapply both_bind; [apply edge_pts_sim|].
  intros x y [Ha Hb]. cbn [both]. apply Pt_At. apply Pt_At in Ha. apply Pt_At in Hb.
  apply (At_weak ((1 + 1) * half (K := numR))); [cbn; field|]. apply At_scale, At_add; assumption.
Qed.

Lemma run_nonempty k i l : (2 <= k <= m_dim m)%nat -> no_empty m -> run m 1 k i = Ok l -> l <> [].
Proof.
  intros Hk HN. cbn [run]. destruct (Nat.eqb_spec k (m_dim m)) as [E|E]; intros H.
  - apply bind_ok in H as (ll & H & H2). injection H2 as <-. unfold ring_walk in H. apply bind_ok in H as (b & _ & H).
    cbn [do_while] in H. apply bind_ok in H as ([x n] & H1 & H). cbn [fst snd] in H.
    assert (Hx : x = [b]).
    { unfold ring_step in H1. apply bind_ok in H1 as (x' & Hx' & H1). injection Hx' as <-. apply bind_ok in H1 as (g & _ & H1). apply bind_ok in H1 as (y & _ & H1). congruence. }
    destruct (N.eqb n b); [injection H as <-; subst x; discriminate|]. apply bind_ok in H as (rest & _ & H). injection H as <-. subst x. discriminate.
  - apply bind_ok in H as (js & Hjs & H). apply bind_ok in H as (ll & H & H2). injection H2 as <-.
    pose proof (HN k i js ltac:(lia) Hjs) as Hne. destruct js as [|j js]; [easy|]. cbn [mapM bind] in H.
    apply bind_ok in H as (rest & _ & H). injection H as <-. discriminate.
Qed.
Lemma apply1_nonempty k i calls : (2 <= k <= m_dim m)%nat -> no_empty m -> apply1 m k (k - 1) i = Ok calls -> calls <> [].
Proof.
  intros Hk HN H. unfold apply1 in H. replace (k - (k - 1))%nat with 1%nat in H by lia.
  apply bind_ok in H as (l & Hl & H). apply run_nonempty in Hl; [|exact Hk|exact HN]. injection H as <-. destruct l; [easy|discriminate].
Qed.

Lemma sum_sub_sim lo sub sub' c (x y : rv * R) : Forall2 Pt sub sub' ->
  At (snd x) (fst x) (fst y) /\ snd y = snd x /\ lo <= snd x ->
  both (fun x y => At (snd x) (fst x) (fst y) /\ snd y = snd x /\ lo + 1 <= snd x) (sum_sub (K := numR) sub x c) (sum_sub (K := numR) sub' y c).
Proof.
  intros HS (H1 & H2 & H3). unfold sum_sub. eapply both_bind; [apply both_vat, HS|]. intros p p' Hp. cbn [both fst snd].
  cbn [nadd none_ numR]. refine (conj _ (conj _ _)); [apply At_add; [exact H1|now apply Pt_At]|exact (f_equal (fun t => t + 1) H2)|apply Rplus_le_compat_r; exact H3].
Qed.
Lemma center_level_sim k sub sub' : d = m_dim m -> (2 <= k <= m_dim m)%nat -> no_empty m -> Forall2 Pt sub sub' ->
  both (Forall2 Pt) (center_level (K := numR) (m_dim m) m k sub) (center_level (K := numR) (m_dim m) m' k sub').
Proof.
  intros Hd Hk HN HS. unfold center_level. rewrite image_n_elems. apply both_mapM. intros i _. rewrite image_apply1.
  apply (both_same Pt (apply1 (V := point) m k (k - 1) i)). intros calls E.
  apply apply1_nonempty in E; [|exact Hk|exact HN]. destruct calls as [|c r]; [easy|]. cbn [foldM].
  apply (both_bind (fun x y => At (snd x) (fst x) (fst y) /\ snd y = snd x /\ 1 <= snd x)).
  - eapply both_bind.
    + apply (sum_sub_sim 0 sub sub' c); [exact HS|]. cbn [fst snd nzero numR]. rewrite <- Hd. refine (conj _ (conj _ _)); [apply At_zero|reflexivity|apply Rle_refl].
    + intros x y Hxy. apply (both_foldM (fun x y => At (snd x) (fst x) (fst y) /\ snd y = snd x /\ 1 <= snd x)).
      * intros c' a b _ Hab. eapply both_mono; [|apply (sum_sub_sim 1 sub sub' c' a b HS Hab)]. cbn beta. intros a' b' (A & B & C). refine (conj _ (conj _ _)); [exact A|exact B|lra].
      * destruct Hxy as (A & B & C). refine (conj _ (conj _ _)); [exact A|exact B|lra].
  - intros [S n] [S' n'] (A & B & C). cbn [fst snd] in *. subst n'. cbn [both]. apply Pt_At. unfold vdiv.
    apply (At_weak (n * ndiv (n := numR) none_ n)); [cbn; field; lra|]. now apply At_scale.
Qed.

Lemma center_levels_sim steps : d = m_dim m -> no_empty m -> forall k sub sub', (2 <= k)%nat -> (k + steps <= S (m_dim m))%nat -> Forall2 Pt sub sub' ->
  both (Forall2 (Forall2 Pt)) (center_levels (K := numR) false (m_dim m) m steps k sub) (center_levels (K := numR) false (m_dim m) m' steps k sub').
Proof.
  intros Hd HN. induction steps as [|n IH]; intros k sub sub' H2 Hk HS; cbn [center_levels]; [constructor|]. cbn [andb].
  eapply both_bind; [apply center_level_sim; [exact Hd|lia|exact HN|exact HS]|]. intros l l' Hl.
  eapply both_bind; [apply IH; [lia|lia|exact Hl]|]. intros r r' Hr. cbn. now constructor.
Qed.
Lemma computeCenters_sim : d = m_dim m -> (1 <= m_dim m)%nat -> no_empty m ->
  both (Forall2 (Forall2 Pt)) (computeCenters (K := numR) false m) (computeCenters (K := numR) false m').
Proof.
  intros Hd H1 HN. unfold computeCenters. eapply both_bind; [apply edge_centers_sim|]. intros e e' He.
  change (m_dim m') with (m_dim m).
  eapply both_bind; [apply center_levels_sim; [exact Hd|exact HN|lia|lia|exact He]|]. intros r r' Hr. cbn. now constructor.
Qed.

(** *** Normals *)
Lemma two_pts c x (a b : rv * rv) c' x' : Pt (fst a) (fst b) /\ Pt (snd a) (snd b) -> Pt c c' -> Pt x x' ->
  Forall2 (Vt s) [vs c (fst a); vs c (snd a); vs c x] [vs c' (fst b); vs c' (snd b); vs c' x'].
Proof. intros [Ha Hb] Hc Hx. constructor; [now apply Vt_sub|constructor; [now apply Vt_sub|constructor; [now apply Vt_sub|constructor]]]. Qed.
Lemma sign_sim sg : St 1 (sign_of (K := numR) sg) (sign_of (K := numR) sg).
Proof. unfold St. cbn. destruct sg; cbn; ring. Qed.
Lemma normal3_sim cc fc cc' fc' i : Forall2 Pt cc cc' -> Forall2 Pt fc fc' -> both (Vt 1) (normal3 (K := numR) m cc fc i) (normal3 (K := numR) m' cc' fc' i).
Proof.
  intros HC HFc. unfold normal3. change (m_faces m') with (m_faces m). eapply both_bind; [apply both_refl|]. intros face ? <-.
  destruct (side_cell (f_conn face)) as [cell sg]. eapply both_bind; [apply both_vat, HC|]. intros x x' Hx.
  eapply both_bind; [apply both_refl|]. intros e0 ? <-. eapply both_bind; [apply edge_pts_sim|]. intros a b Hab.
  eapply both_bind; [apply both_vidx, HFc|]. intros c c' Hc. eapply both_bind; [apply gramSchmidtN_sim, two_pts; eassumption|].
  intros g g' [Hg _]. eapply both_bind; [apply both_vidx, Hg|]. intros n n' Hn. cbn [both]. unfold scalev.
  eapply Vt_weak; [|apply Vt_scale; [exact Hn|apply sign_sim]]. ring.
Qed.
Lemma normals3_sim cc fc cc' fc' : Forall2 Pt cc cc' -> Forall2 Pt fc fc' ->
  both (Forall2 (Vt 1)) (computeNormals3 (K := numR) m cc fc) (computeNormals3 (K := numR) m' cc' fc').
Proof. intros HC HFc. unfold computeNormals3. apply both_mapM. intros i _. now apply normal3_sim. Qed.

Lemma normal3_tess_sim cc fc cc' fc' i : d = 3%nat -> Forall2 Pt cc cc' -> Forall2 Pt fc fc' ->
  both (Vt 1) (normal3_tess (K := numR) m cc fc i) (normal3_tess (K := numR) m' cc' fc' i).
Proof.
  intros Hd HC HFc. unfold normal3_tess. change (m_faces m') with (m_faces m). eapply both_bind; [apply both_refl|]. intros face ? <-.
  destruct (side_cell (f_conn face)) as [cell sg]. eapply both_bind; [apply both_vat, HC|]. intros x x' Hx.
  eapply both_bind; [apply both_vidx, HFc|]. intros c c' Hc. rewrite image_apply1. eapply both_bind; [apply both_refl|]. intros calls ? <-.
  apply (both_bind (fun x y => Vt (s * s) (fst x) (fst y) /\ St (s * s) (snd x) (snd y))).
  - apply both_foldM.
    + intros call p q _ [H1 H2]. unfold tess_normal_step. eapply both_bind; [apply edge_pts_sim|]. intros a b Hab.
      eapply both_bind; [apply gramSchmidtN_sim, two_pts; eassumption|]. intros g g' [Hg Hn].
      eapply both_bind; [apply both_vidx, Hg|]. intros e2 e2' He2. eapply both_bind; [apply both_vidx, Hn|]. intros n0 n0' Hn0.
      eapply both_bind; [apply both_vidx, Hn|]. intros n1 n1' Hn1. cbn [both fst snd]. split.
      * apply Vt_vadd; [exact H1|]. apply (Vt_weak (1 * 1 * s * s)); [ring|]. apply Vt_scale; [apply Vt_scale; [apply Vt_scale; [exact He2|apply St_one]|exact Hn0]|exact Hn1].
      * apply St_add; [exact H2|]. apply (St_weak (1 * s * s)); [ring|]. apply St_mul; [apply St_mul; [apply St_one|exact Hn0]|exact Hn1].
    + cbn [fst snd nzero numR]. rewrite <- Hd. split; [apply Vt_zero|apply St_zero].
  - intros p q [H1 H2]. cbn [both]. assert (G : Vt 1 (vdiv (K := numR) (fst p) (snd p)) (vdiv (K := numR) (fst q) (snd q))).
    { unfold vdiv. apply (Vt_weak (s * s * (/ (s * s)))); [field; lra|]. apply Vt_scale; [exact H1|]. unfold St in *. cbn [ndiv none_ numR].
      rewrite H2. unfold Rdiv. nr. rewrite Rinv_mult. ring. }
    destruct sg; [exact G|]. apply (Vt_weak (1 * 1)); [ring|]. apply Vt_scale; [exact G|]. apply St_one.
Qed.

(** *** Measures *)
Lemma face_measure_sim lens lens' fc fc' i : Forall2 (St s) lens lens' -> Forall2 Pt fc fc' ->
  both (St (s * s)) (face_measure (K := numR) m lens fc i) (face_measure (K := numR) m' lens' fc' i).
Proof.
  intros HLn HFc. unfold face_measure. change (m_faces m') with (m_faces m). eapply both_bind; [apply both_refl|]. intros face ? <-.
  eapply both_bind; [apply both_vidx, HFc|]. intros c c' Hc. apply both_foldM.
  - intros e x y _ Hxy. unfold face_step. eapply both_bind; [apply edge_pts_sim|]. intros a b [Ha Hb].
    eapply both_bind.
    { apply gramSchmidtN_sim. repeat (apply Forall2_cons; [eapply Vt_sub; eassumption|]). apply Forall2_nil. }
    intros g g' [_ Hn]. eapply both_bind; [apply both_vidx, Hn|]. intros n1 n1' Hn1. eapply both_bind; [apply both_vat, HLn|]. intros ln ln' Hln.
    cbn [both]. apply St_add; [exact Hxy|]. apply (St_weak (1 * s * s)); [ring|]. apply St_mul; [apply St_mul; [apply St_one|exact Hn1]|exact Hln].
  - unfold St. cbn. ring.
Qed.
Lemma fold_sum_sim c l l' : Forall2 (St c) l l' -> forall x y, St c x y -> St c (fold_left Rplus l x) (fold_left Rplus l' y).
Proof. intros H. induction H as [|a b l l' Hab H IH]; intros x y Hxy; [exact Hxy|]. cbn. apply IH. unfold St in *. rewrite Hab, Hxy. ring. Qed.
Lemma measure3_sim cc fc cc' fc' fm fm' i : Forall2 Pt cc cc' -> Forall2 Pt fc fc' -> Forall2 (St (s * s)) fm fm' ->
  both (St (s * s * s)) (measure3 (K := numR) m cc fc fm i) (measure3 (K := numR) m' cc' fc' fm' i).
Proof.
  intros HC HFc HM. unfold measure3. eapply both_bind; [apply both_vat, HC|]. intros x x' Hx.
  apply (both_bind (Forall2 (St (s * s * s)))).
  - apply both_ring; [reflexivity|reflexivity|]. intros e. unfold cell_term. change (m_faces m') with (m_faces m).
    eapply both_bind; [apply both_refl|]. intros face ? <-. eapply both_bind; [apply both_refl|]. intros e0 ? <-.
    eapply both_bind; [apply edge_pts_sim|]. intros a b [Ha Hb]. eapply both_bind; [apply both_vat, HFc|]. intros c c' Hc.
    eapply both_bind.
    { apply gramSchmidtN_sim. repeat (apply Forall2_cons; [eapply Vt_sub; eassumption|]). apply Forall2_nil. }
    intros g g' [_ Hn]. eapply both_bind; [apply both_vidx, Hn|]. intros n2 n2' Hn2. eapply both_bind; [apply both_vat, HM|]. intros ar ar' Har.
    cbn [both]. replace (s * s * s) with (s * (s * s)) by ring. apply (St_div s (s * s) n2 ar (three (K := numR)) n2' ar'); assumption.
  - intros l l' Hl. cbn [both]. apply (fold_sum_sim (s * s * s)); [exact Hl|]. unfold St. cbn. ring.
Qed.
Lemma measures3_sim cc fc cc' fc' : Forall2 Pt cc cc' -> Forall2 Pt fc fc' ->
  both (fun x y => Forall2 (St s) (fst (fst x)) (fst (fst y)) /\ Forall2 (St (s * s)) (snd (fst x)) (snd (fst y)) /\ Forall2 (St (s * s * s)) (snd x) (snd y))
    (computeMeasures3 (K := numR) m cc fc) (computeMeasures3 (K := numR) m' cc' fc').
Proof.
  intros HC HFc. unfold computeMeasures3. change (m_faces m') with (m_faces m). change (m_cells m') with (m_cells m).
  eapply both_bind; [apply edge_lengths_sim|]. intros l l' Hl.
  eapply both_bind; [apply both_mapM; intros i _; apply (face_measure_sim l l' fc fc' i); assumption|]. intros fm fm' Hfm.
  eapply both_bind; [apply both_mapM; intros i _; apply (measure3_sim cc fc cc' fc' fm fm' i); assumption|]. intros v v' Hv.
  cbn. auto.
Qed.

(** *** Distances *)
Lemma any_center_sim cc bcc cc' bcc' i : Forall2 Pt cc cc' -> Forall2 Pt bcc bcc' -> both Pt (any_center (K := numR) cc bcc i) (any_center (K := numR) cc' bcc' i).
Proof. intros HC HB. unfold any_center. destruct (isBoundaryIndex 64 i); apply both_vat; assumption. Qed.
Lemma centerDifference_sim cc fc bcc cc' fc' bcc' : Forall2 Pt cc cc' -> Forall2 Pt fc fc' -> Forall2 Pt bcc bcc' ->
  both (Forall2 (Vt s)) (centerDifference (K := numR) d m cc fc bcc) (centerDifference (K := numR) d m' cc' fc' bcc').
Proof.
  intros HC HFc HB. unfold centerDifference. change (m_faces m') with (m_faces m). change (m_bcells m') with (m_bcells m). apply both_mapM. intros i _.
  eapply both_bind; [apply both_refl|]. intros face ? <-. eapply both_bind; [apply both_vidx, HFc|]. intros c c' Hc.
  change (@m_bcells (vec numR) m) with (@m_bcells point m). destruct (m_bcells m) as [|bcl bls].
  - unfold diff_plain. cbv zeta. destruct (_ && _); [|destruct (negb _); [|destruct (negb _)]].
    + eapply both_bind; [apply both_vat, HC|]. intros x x' Hx. eapply both_bind; [apply both_vat, HC|]. intros y y' Hy. now apply Vt_sub.
    + eapply both_bind; [apply both_vat, HC|]. intros y y' Hy. now apply Vt_sub.
    + eapply both_bind; [apply both_vat, HC|]. intros y y' Hy. now apply Vt_sub.
    + apply (Vt_zero s).
  - eapply both_bind; [apply any_center_sim; eassumption|]. intros x x' Hx. eapply both_bind; [apply any_center_sim; eassumption|]. intros y y' Hy. now apply Vt_sub.
Qed.
Lemma cellsDistance_sim cc fc bcc cc' fc' bcc' : Forall2 Pt cc cc' -> Forall2 Pt fc fc' -> Forall2 Pt bcc bcc' ->
  both (Forall2 (St s)) (cellsDistance (K := numR) m cc fc bcc) (cellsDistance (K := numR) m' cc' fc' bcc').
Proof.
  assert (G : forall x y x' y', Pt x x' -> Pt y y' -> St s (normEuclid (K := numR) (vs x y)) (normEuclid (K := numR) (vs x' y'))).
  { intros x y x' y' Hx Hy. apply Vt_norm; [lra|]. now apply Vt_sub. }
  intros HC HFc HB. unfold cellsDistance. change (m_faces m') with (m_faces m). change (m_bcells m') with (m_bcells m). apply both_mapM. intros i _.
  eapply both_bind; [apply both_refl|]. intros face ? <-. eapply both_bind; [apply both_vidx, HFc|]. intros c c' Hc.
  change (@m_bcells (vec numR) m) with (@m_bcells point m). destruct (m_bcells m) as [|bcl bls].
  - unfold dist_plain. cbv zeta. destruct (_ && _); [|destruct (negb _); [|destruct (negb _)]].
    + eapply both_bind; [apply both_vat, HC|]. intros x x' Hx. eapply both_bind; [apply both_vat, HC|]. intros y y' Hy. now apply G.
    + eapply both_bind; [apply both_vat, HC|]. intros y y' Hy. now apply G.
    + eapply both_bind; [apply both_vat, HC|]. intros y y' Hy. now apply G.
    + unfold St. cbn. ring.
  - eapply both_bind; [apply any_center_sim; eassumption|]. intros x x' Hx. eapply both_bind; [apply any_center_sim; eassumption|]. intros y y' Hy. now apply G.
Qed.

(** *** Any dimension *)
Lemma unchecked_sim {A B} (R : A -> B -> Prop) x y : both R x y -> both R (unchecked x) (unchecked y).
Proof. destruct x, y; cbn; auto. Qed.
Lemma nth_tables cs cs' k : Forall2 (Forall2 Pt) cs cs' -> Forall2 Pt (nth k cs []) (nth k cs' []).
Proof. intros H. revert k. induction H as [|a b l l' Hab H IH]; intros [|k]; cbn; auto. Qed.
Lemma getCenters_sim cs cs' : Forall2 (Forall2 Pt) cs cs' -> forall k i, both (Forall2 Pt) (getCenters (K := numR) m cs k i) (getCenters (K := numR) m' cs' k i).
Proof.
  intros HC. induction k as [|k IH]; intros i; [exact I|]. destruct k as [|k].
  - cbn [getCenters]. eapply both_bind; [apply unchecked_sim, edge_pts_sim|]. intros a b [Ha Hb]. cbn. auto.
  - set (k1 := S k) in *. change (getCenters (K := numR) m cs (S k1) i) with
      (c <- centerAt (K := numR) cs (S k1) i ;; js <- unchecked (subs m (S k1) i) ;; j <- vidx js 0 ;; r <- getCenters (K := numR) m cs k1 j ;; Ok (c :: r)).
    change (getCenters (K := numR) m' cs' (S k1) i) with
      (c <- centerAt (K := numR) cs' (S k1) i ;; js <- unchecked (subs m (S k1) i) ;; j <- vidx js 0 ;; r <- getCenters (K := numR) m' cs' k1 j ;; Ok (c :: r)).
    eapply both_bind; [apply both_vidx, nth_tables, HC|]. intros c c' Hc. eapply both_bind; [apply both_refl|]. intros js ? <-.
    eapply both_bind; [apply both_refl|]. intros j ? <-. eapply both_bind; [apply IH|]. intros r r' Hr. cbn. now constructor.
Qed.
Lemma frameVecs_sim l l' x x' : Forall2 Pt l l' -> Pt x x' -> both (Forall2 (Vt s)) (frameVecs (K := numR) l x) (frameVecs (K := numR) l' x').
Proof.
  intros H Hx. destruct H as [|p p' l l' Hp H]; [exact I|]. cbn [frameVecs both]. apply Forall2_app.
  - induction H as [|q q' l l' Hq H IH]; cbn [map]; constructor; [now apply Vt_sub|exact IH].
  - constructor; [now apply Vt_sub|constructor].
Qed.
Lemma lastOf_sim {A B} (R : A -> B -> Prop) l l' : Forall2 R l l' -> both R (lastOf l) (lastOf l').
Proof. intros H. unfold lastOf. rewrite (Forall2_length' _ _ _ H). now apply both_vidx. Qed.
Lemma normalsN_sim cs cs' : Forall2 (Forall2 Pt) cs cs' ->
  both (Forall2 (Vt 1)) (computeNormalsN (K := numR) m cs) (computeNormalsN (K := numR) m' cs').
Proof.
  intros HC. unfold computeNormalsN. change (m_faces m') with (m_faces m). apply both_mapM. intros i _. unfold normalN.
  change (m_faces m') with (m_faces m). change (m_dim m') with (m_dim m). eapply both_bind; [apply both_refl|]. intros face ? <-.
  destruct (side_cell (f_conn face)) as [cell sg]. eapply both_bind; [apply both_vat, nth_tables, HC|]. intros x x' Hx.
  eapply both_bind; [apply getCenters_sim, HC|]. intros r r' Hr. eapply both_bind; [apply frameVecs_sim; eassumption|]. intros v v' Hv.
  eapply both_bind; [apply gramSchmidtN_sim, Hv|]. intros g g' [Hg _]. eapply both_bind; [apply lastOf_sim, Hg|]. intros n n' Hn.
  cbn [both]. unfold scalev. eapply Vt_weak; [|apply Vt_scale; [exact Hn|apply sign_sim]]. ring.
Qed.
Lemma measure_level_sim cs cs' k sub sub' c : Forall2 (Forall2 Pt) cs cs' -> Forall2 (St c) sub sub' ->
  both (Forall2 (St (s * c))) (measure_level (K := numR) m cs k sub) (measure_level (K := numR) m' cs' k sub').
Proof.
  intros HC HS. unfold measure_level. rewrite image_n_elems. apply both_mapM. intros i _. rewrite image_apply1.
  eapply both_bind; [apply both_refl|]. intros calls ? <-. eapply both_bind; [apply both_vidx, nth_tables, HC|]. intros x x' Hx.
  apply (both_bind (St (s * c))).
  - apply both_foldM; [|unfold St; cbn; ring]. intros call a b _ Hab. unfold measure_step.
    eapply both_bind; [apply getCenters_sim, HC|]. intros r r' Hr. eapply both_bind; [apply frameVecs_sim; eassumption|]. intros v v' Hv.
    eapply both_bind; [apply gramSchmidtN_sim, Hv|]. intros g g' [_ Hg]. eapply both_bind; [apply lastOf_sim, Hg|]. intros n n' Hn.
    eapply both_bind; [apply both_vidx, HS|]. intros u u' Hu. cbn [both]. apply St_add; [exact Hab|]. now apply St_mul.
  - intros a b Hab. cbn [both]. apply (St_weak (1 * (s * c))); [ring|]. apply St_mul; [apply St_one|exact Hab].
Qed.
Lemma measure_levels_sim cs cs' : Forall2 (Forall2 Pt) cs cs' -> forall steps k sub sub' n, Forall2 (St (s ^ n)) sub sub' ->
  both (fun x y => length x = length y /\ forall j l l', nth_error x j = Some l -> nth_error y j = Some l' -> Forall2 (St (s ^ (n + S j))) l l')
    (measure_levels (K := numR) m cs steps k sub) (measure_levels (K := numR) m' cs' steps k sub').
Proof.
  intros HC. induction steps as [|st IH]; intros k sub sub' n HS; cbn [measure_levels].
  - split; [reflexivity|]. intros [|j] l l' H; discriminate.
  - eapply both_bind; [apply (measure_level_sim cs cs' k sub sub' (s ^ n)); assumption|]. intros l l' Hl.
    eapply both_bind; [apply (IH (S k) l l' (S n)); exact Hl|]. intros r r' [Hr1 Hr2]. cbn [both].
    split; [cbn; now rewrite Hr1|]. intros [|j] t t' Ht Ht'.
    + cbn in Ht, Ht'. injection Ht as <-. injection Ht' as <-. replace (n + 1)%nat with (S n) by lia. exact Hl.
    + replace (n + S (S j))%nat with (S n + S j)%nat by lia. now apply (Hr2 j).
Qed.
Lemma measuresN_sim cs cs' : Forall2 (Forall2 Pt) cs cs' ->
  both (fun x y => length x = length y /\ forall j l l', nth_error x j = Some l -> nth_error y j = Some l' -> Forall2 (St (s ^ S j)) l l')
    (computeMeasuresN (K := numR) m cs) (computeMeasuresN (K := numR) m' cs').
Proof.
  intros HC. unfold computeMeasuresN. change (m_dim m') with (m_dim m). eapply both_bind; [apply edge_lengths_sim|]. intros l l' Hl.
  assert (Hl1 : Forall2 (St (s ^ 1)) l l') by (rewrite pow_1; exact Hl).
  eapply both_bind; [apply (measure_levels_sim cs cs' HC _ 2 l l' 1 Hl1)|]. intros r r' [Hr1 Hr2]. cbn [both].
  split; [cbn; now rewrite Hr1|]. intros [|j] t t' Ht Ht'.
  - cbn in Ht, Ht'. injection Ht as <-. injection Ht' as <-. exact Hl1.
  - apply (Hr2 j); assumption.
Qed.
End Mesh.

(** *** What the relations say *)
Lemma Vt_carried c v v' : Vt c v v' -> c <> 0 -> carried d f (s / c) v v'.
Proof.
  intros [Hv ->] Hc. pose proof (q_len _ _ HQ v Hv) as L1. split; [exact Hv|]. split; [now apply vscale_len|]. intros p Hp.
  assert (Es : forall t q : rv, length t = length q -> shift t q = va q t).
  { clear. induction t as [|x t IH]; intros [|y q] H; try discriminate; [reflexivity|]. cbn. f_equal. apply IH. now injection H. }
  rewrite Es by congruence. rewrite <- vsub_diff, HF by (first [assumption|apply vadd_len; assumption]).
  assert (E : vs (va p v) p = v).
  { apply (vec_ext d); [apply vsub_len; [now apply vadd_len|exact Hp]|exact Hv|]. intros i.
    rewrite (nth_vs _ _ i d), (nth_va _ _ i d) by (first [assumption|apply vadd_len; assumption]). ring. }
  rewrite E. unfold vscale. rewrite map_map. apply map_ext. intros x. cbn. field. exact Hc.
Qed.
End Sim.

(** ** The plane *)
Section Plane.
Variables (s sg : R) (f : point -> point) (Q : rv -> rv).
Hypothesis Hs : 0 < s.
Hypothesis HL : forall p, length p = 2%nat -> length (f p) = 2%nat.
Hypothesis HQ : isom 2 Q.
Hypothesis HF : forall p q, length p = 2%nat -> length q = 2%nat -> vs (f p) (f q) = vk (Q (vs p q)) s.
Notation Pt2 := (Pt 2 f).
Notation cr u v := (nth 0 u 0 * nth 1 v 0 - nth 1 u 0 * nth 0 v 0).

Lemma sprod2 (u v : rv) : length u = 2%nat -> length v = 2%nat -> sprod u v = nth 0 u 0 * nth 0 v 0 + nth 1 u 0 * nth 1 v 0.
Proof. destruct u as [|a [|b [|]]], v as [|c [|e [|]]]; try discriminate. intros _ _. cbn. ring. Qed.
Lemma cr_sq (u v : rv) : length u = 2%nat -> length v = 2%nat -> cr u v * cr u v = sprod u u * sprod v v - sprod u v * sprod u v.
Proof. intros Hu Hv. rewrite !sprod2 by assumption. ring. Qed.
Lemma cr_abs (u v u' v' : rv) : Vt 2 Q s u u' -> Vt 2 Q s v v' -> Rabs (cr u' v') = s * s * Rabs (cr u v).
Proof.
  intros Hu Hv. pose proof (Vt_len 2 Q HQ _ _ _ Hu) as Lu. pose proof (Vt_len 2 Q HQ _ _ _ Hv) as Lv.
  pose proof (Vt_dot 2 Q HQ s s _ _ _ _ Hu Hu) as D1. pose proof (Vt_dot 2 Q HQ s s _ _ _ _ Hv Hv) as D2. pose proof (Vt_dot 2 Q HQ s s _ _ _ _ Hu Hv) as D3.
  rewrite !dot_sprod in D1, D2, D3. destruct Hu as [Hu _], Hv as [Hv _].
  assert (E : Rsqr (cr u' v') = Rsqr (s * s * cr u v)).
  { unfold Rsqr. rewrite cr_sq by assumption. rewrite D1, D2, D3. transitivity (s * s * (s * s) * (cr u v * cr u v)); [rewrite cr_sq by assumption|]; ring. }
  apply Rsqr_eq_abs_0 in E. rewrite E, !Rabs_mult, (Rabs_pos_eq s) by lra. reflexivity.
Qed.
Lemma triangle2_sim c a b c' a' b' : Pt2 c c' -> Pt2 a a' -> Pt2 b b' -> St (s * s) (triangle2 (K := numR) c a b) (triangle2 (K := numR) c' a' b').
Proof.
  intros Hc Ha Hb. pose proof (cr_abs _ _ _ _ (Vt_sub 2 s f Q HF _ _ _ _ Hc Ha) (Vt_sub 2 s f Q HF _ _ _ _ Hb Ha)) as E.
  assert (Lc : length c' = 2%nat) by (destruct Hc as [? ->]; auto). assert (La : length a' = 2%nat) by (destruct Ha as [? ->]; auto).
  assert (Lb : length b' = 2%nat) by (destruct Hb as [? ->]; auto). destruct Hc as [Hc _], Ha as [Ha _], Hb as [Hb _].
  rewrite !(nth_vs _ _ _ 2) in E by assumption. unfold St, triangle2, co. cbn [nmul nsub nabs nzero numR]. 
  apply eq_trans with (half (K := numR) * (s * s * Rabs ((nth 0 c 0 - nth 0 a 0) * (nth 1 b 0 - nth 1 a 0) - (nth 1 c 0 - nth 1 a 0) * (nth 0 b 0 - nth 0 a 0)))).
  - now rewrite <- E.
  - change (num numR) with R. ring.
Qed.
Section Mesh2.
Variable m : Mesh point.
Hypothesis HV : forall p, In p (m_verts m) -> length p = 2%nat.
Notation m' := (image f m).
Lemma measure2_sim cc cc' i : Forall2 Pt2 cc cc' -> both (St (s * s)) (measure2 (K := numR) m cc i) (measure2 (K := numR) m' cc' i).
Proof.
  intros HC. unfold measure2. eapply both_bind; [apply both_vat, HC|]. intros c c' Hc.
  apply (both_bind (Forall2 (St (s * s)))).
  - apply both_ring; [reflexivity|reflexivity|]. intros e. eapply both_bind; [apply (edge_pts_sim 2 f m HV)|]. intros a b [Ha Hb].
    cbn [both]. now apply triangle2_sim.
  - intros l l' Hl. cbn [both]. apply (fold_sum_sim (s * s)); [exact Hl|apply St_zero].
Qed.
Lemma measures2_sim cc cc' : Forall2 Pt2 cc cc' ->
  both (fun x y => Forall2 (St s) (fst x) (fst y) /\ Forall2 (St (s * s)) (snd x) (snd y)) (computeMeasures2 (K := numR) m cc) (computeMeasures2 (K := numR) m' cc').
Proof.
  intros HC. unfold computeMeasures2. change (m_cells m') with (m_cells m).
  eapply both_bind; [apply (edge_lengths_sim 2 s f Q Hs HQ HF m HV)|]. intros l l' Hl.
  eapply both_bind; [apply both_mapM; intros i _; apply (measure2_sim cc cc' i); exact HC|]. intros v v' Hv. cbn. auto.
Qed.

Hypothesis Hsg : sg = 1 \/ sg = -1.
Hypothesis HO : orient2 s sg f.
Lemma area2_cr p a b : length p = 2%nat -> length a = 2%nat -> length b = 2%nat -> area2 p a b = cr (vs a p) (vs b p).
Proof. intros Hp Ha Hb. rewrite !(nth_vs _ _ _ 2) by assumption. reflexivity. Qed.
Lemma Q_cr u v : length u = 2%nat -> length v = 2%nat -> cr (Q u) (Q v) = sg * cr u v.
Proof.
  intros Hu Hv. set (o := repeat 0 2). assert (Lo : length o = 2%nat) by reflexivity. pose proof (HO o u v Lo Hu Hv) as E.
  assert (S0 : forall w, length w = 2%nat -> vs w o = w).
  { intros w Hw. destruct w as [|x [|y [|]]]; try discriminate. cbn. f_equal; [|f_equal]; nr; ring. }
  rewrite !area2_cr, !HF, !S0, !vscale_nth in E by auto. nr. apply (Rmult_eq_reg_l (s * s)); [|nra]. lra.
Qed.
Lemma turn_norm (v : rv) : length v = 2%nat -> Q [nth 1 v 0; - nth 0 v 0] = vk [nth 1 (Q v) 0; - nth 0 (Q v) 0] sg.
Proof.
  intros Hv. set (J := [nth 1 v 0; - nth 0 v 0]). set (K := [nth 1 (Q v) 0; - nth 0 (Q v) 0]).
  pose proof (q_len _ _ HQ v Hv) as Lq. assert (LJ : length J = 2%nat) by reflexivity. pose proof (q_len _ _ HQ J LJ) as LQJ.
  assert (LK : length (vk K sg) = 2%nat) by reflexivity. assert (LK' : length K = 2%nat) by reflexivity.
  apply vsub_zero_eq; [exact (eq_trans LQJ (eq_sym LK))|]. rewrite (sub_l 2), !(sub_r 2) by assumption.
  assert (B1 : sprod (Q J) (vk K sg) = sg * sprod (Q J) K) by apply sprod_vscale_r.
  assert (B2 : sprod (vk K sg) (Q J) = sg * sprod (Q J) K) by (rewrite sprod_comm; exact B1).
  assert (B3 : sprod (vk K sg) (vk K sg) = sg * (sg * sprod K K)).
  { eapply eq_trans; [apply sprod_vscale_l|]. f_equal. eapply eq_trans; [apply sprod_comm|]. eapply eq_trans; [apply sprod_comm|]. apply sprod_vscale_r. }
  rewrite B1, B2, B3, (q_dot _ _ HQ) by assumption.
  pose proof (Q_cr J v LJ Hv) as E1. pose proof (q_dot _ _ HQ v v Hv Hv) as E2.
  assert (A1 : sprod (Q J) K = cr (Q J) (Q v)) by (rewrite sprod2 by assumption; unfold K; cbn [nth]; ring).
  assert (A2 : cr J v = sprod J J) by (rewrite sprod2 by assumption; unfold J; cbn [nth]; ring).
  assert (A3 : sprod K K = sprod (Q v) (Q v)) by (rewrite !sprod2 by assumption; unfold K; cbn [nth]; ring).
  assert (A4 : sprod J J = sprod v v) by (rewrite !sprod2 by assumption; unfold J; cbn [nth]; ring).
  rewrite A1, E1, A2, A3, E2, A4. destruct Hsg as [-> | ->]; ring.
Qed.
Lemma normal2_sim a b a' b' : Pt2 a a' -> Pt2 b b' -> Vt 2 Q sg (normal2 (K := numR) a b) (normal2 (K := numR) a' b').
Proof.
  intros Ha Hb. pose proof (Vt_sub 2 s f Q HF _ _ _ _ Hb Ha) as Hv. pose proof (Vt_norm 2 Q HQ s _ _ ltac:(lra) Hv) as Hn.
  destruct Hv as [Lv E]. unfold normal2. cbv zeta. set (v := vs b a) in *. set (v' := vs b' a') in *.
  unfold vdiv. apply (Vt_weak 2 Q (s * sg * / s)); [field; lra|]. apply (Vt_scale 2 Q HQ).
  - split; [reflexivity|]. change (co (K := numR) v 1) with (nth 1 v 0). change (co (K := numR) v 0) with (nth 0 v 0). change (co (K := numR) v' 1) with (nth 1 v' 0).
    change (co (K := numR) v' 0) with (nth 0 v' 0). change (nopp (n := numR) (nth 0 v' 0)) with (- nth 0 v' 0). change (nopp (n := numR) (nth 0 v 0)) with (- nth 0 v 0).
    rewrite turn_norm by exact Lv. rewrite E, !vscale_nth. destruct Hsg as [-> | ->]; cbn; f_equal; [ring|f_equal; ring|ring|f_equal; ring].
  - unfold St in *. rewrite Hn. cbn. unfold Rdiv. rewrite Rinv_mult. ring.
Qed.
Lemma normals2_sim : both (Forall2 (Vt 2 Q sg)) (computeNormals2 (K := numR) m) (computeNormals2 (K := numR) m').
Proof.
  unfold computeNormals2. rewrite image_n_elems. apply both_mapM. intros e _. eapply both_bind; [apply (edge_pts_sim 2 f m HV)|]. intros a b [Ha Hb].
  cbn [both]. now apply normal2_sim.
Qed.
End Mesh2.
End Plane.

(** ** Which side of an edge *)
Lemma bool_iff (a b : bool) P Q : (a = true <-> P) -> (b = true <-> Q) -> (P <-> Q) -> a = b.
Proof. intros [H1 H2] [H3 H4] [H5 H6]. destruct a, b; try reflexivity; [symmetry|]; auto. Qed.
Section Space.
Variables (s sg : R) (f : point -> point) (Q : rv -> rv).
Hypothesis Hs : 0 < s.
Hypothesis HQ : isom 3 Q.
Hypothesis HF : forall p q, length p = 3%nat -> length q = 3%nat -> vs (f p) (f q) = vk (Q (vs p q)) s.
Hypothesis HO : orient3 s sg f.
Lemma triple_vk u v w (a b c : R) : triple (vk u a) (vk v b) (vk w c) = a * b * c * triple u v w.
Proof. unfold triple, det3, px, py, pz. rewrite !vscale_nth. ring. Qed.
Lemma vol6_triple p a b c : length p = 3%nat -> length a = 3%nat -> length b = 3%nat -> length c = 3%nat ->
  vol6 p a b c = triple (vs a p) (vs b p) (vs c p).
Proof. intros. unfold triple, vol6, det3, px, py, pz. rewrite !(nth_vs _ _ _ 3) by assumption. reflexivity. Qed.
Hypothesis HL : forall p, length p = 3%nat -> length (f p) = 3%nat.
Lemma Q_triple u v w : length u = 3%nat -> length v = 3%nat -> length w = 3%nat -> triple (Q u) (Q v) (Q w) = sg * triple u v w.
Proof.
  intros Hu Hv Hw. set (o := repeat 0 3). assert (Lo : length o = 3%nat) by reflexivity. pose proof (HO o u v w Lo Hu Hv Hw) as E.
  assert (S0 : forall t, length t = 3%nat -> vs t o = t).
  { intros t Ht. destruct t as [|x [|y [|z [|]]]]; try discriminate. cbn. f_equal; [|f_equal; [|f_equal]]; nr; ring. }
  rewrite !vol6_triple, !HF, !S0 in E by auto. rewrite triple_vk in E. apply (Rmult_eq_reg_l (s * s * s)); [lra|]. assert (0 < s * s) by nra. nra.
Qed.
End Space.

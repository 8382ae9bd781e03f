(** Lemmas for C99: the tetrahedra between the sides of convex cells and their centres. Exact real arithmetic. *)
From Coq Require Import Reals Lra Permutation List String.
Import ListNotations.
From Verif Require Import P_Base M_Conn S_Conn P_Conn M_Index M_Mesh M_Apply S_Mesh P_Apply M_Vec S_Vec P_Vec M_Geom S_Geom P_Geom
  S_Polygon P_Polygon P_Volume S_Flux P_Flux T_Flux T_Measure2 T_Normals T_Volume T_Gauss2 T_Gauss3 M_Object T_Object S_Convex P_Convex P_Convex3 T_Convex3 M_FPMA S_FPMA P_FPMA P_Bnd
  M_VTK S_VTK S_Tess Ex_Mesh Ex_Geom T_ConvexVTK S_ConvexFile P_ConvexFile T_Tets S_Export.
Local Open Scope nat_scope.
Local Open Scope list_scope.

(** * Lists *)
Lemma flat_disjoint {A B} (h : A -> list B) l x y d : NoDup (flat_map h l) -> In x l -> In y l -> In d (h x) -> In d (h y) -> x <> y -> False.
Proof.
  induction l as [|z l IH]; intros ND Hx Hy Dx Dy Ne; [destruct Hx|]. cbn [flat_map] in ND.
  assert (Hd : forall w, In w l -> In d (h w) -> In d (flat_map h l)) by (intros; apply in_flat_map; eauto).
  assert (Q : forall d, In d (h z) -> In d (flat_map h l) -> False).
  { clear -ND. intros d. revert ND. induction (h z) as [|a r IH]; intros ND []; cbn [app] in ND; apply NoDup_cons_iff in ND as [N1 N2].
    - subst a. intros H. apply N1, in_app_iff. auto.
    - intros H'. exact (IH N2 H H'). }
  destruct Hx as [->|Hx], Hy as [->|Hy]; [congruence| | |].
  - exact (Q d Dx (Hd y Hy Dy)).
  - exact (Q d Dy (Hd x Hx Dx)).
  - apply (IH (proj1 (proj2 (proj1 (NoDup_app_iff _ _) ND))) Hx Hy Dx Dy Ne).
Qed.
Lemma flat_map_map' {A B D} (h : B -> list D) (q : A -> B) l : flat_map h (map q l) = flat_map (fun x => h (q x)) l.
Proof. induction l as [|x l IH]; [reflexivity|]. cbn. rewrite IH. reflexivity. Qed.
Lemma flat_nodup1 {A B} (h : A -> list B) l x : NoDup (flat_map h l) -> In x l -> NoDup (h x).
Proof.
  induction l as [|z l IH]; intros ND []; cbn [flat_map] in ND.
  - subst z. exact (proj1 (proj1 (NoDup_app_iff _ _) ND)).
  - apply IH; [exact (proj1 (proj2 (proj1 (NoDup_app_iff _ _) ND)))|assumption].
Qed.

Lemma cycle_at vs d : In d (cycle_edges vs) -> exists i, i < length vs /\ d = (nth i vs [], nth (S i mod length vs) vs []).
Proof.
  intros H. apply In_nth_error in H as (i & Hi). assert (Hl : i < length vs) by (rewrite <- cycle_length; apply nth_error_Some; congruence).
  exists i. split; [exact Hl|]. rewrite (cycle_nth vs i [] Hl) in Hi. congruence.
Qed.
Lemma cycle_from vs a b b' : NoDup vs -> In (a, b) (cycle_edges vs) -> In (a, b') (cycle_edges vs) -> b = b'.
Proof.
  intros ND H H'. apply cycle_at in H as (i & Hi & E). apply cycle_at in H' as (j & Hj & E').
  assert (E1 := f_equal fst E). assert (E2 := f_equal fst E'). assert (F1 := f_equal snd E). assert (F2 := f_equal snd E').
  cbn [fst snd] in *. assert (i = j); [|subst j; congruence].
  apply (proj1 (NoDup_nth vs []) ND i j Hi Hj). congruence.
Qed.
Lemma succ_mod_inj n i j : i < n -> j < n -> S i mod n = S j mod n -> i = j.
Proof.
  intros Hi Hj H. assert (K : forall i, i < n -> S i mod n = if S i =? n then 0 else S i).
  { intros k Hk. destruct (Nat.eqb_spec (S k) n) as [->|]; [apply Nat.mod_same; lia|apply Nat.mod_small; lia]. }
  rewrite (K i Hi), (K j Hj) in H. destruct (Nat.eqb_spec (S i) n), (Nat.eqb_spec (S j) n); lia.
Qed.
Lemma cycle_to vs a a' b : NoDup vs -> In (a, b) (cycle_edges vs) -> In (a', b) (cycle_edges vs) -> a = a'.
Proof.
  intros ND H H'. apply cycle_at in H as (i & Hi & E). apply cycle_at in H' as (j & Hj & E').
  assert (E1 := f_equal fst E). assert (E2 := f_equal fst E'). assert (F1 := f_equal snd E). assert (F2 := f_equal snd E').
  cbn [fst snd] in *. assert (i = j); [|subst j; congruence].
  apply (succ_mod_inj (length vs)); try assumption.
  apply (proj1 (NoDup_nth vs []) ND); [apply Nat.mod_upper_bound; lia|apply Nat.mod_upper_bound; lia|]. congruence.
Qed.

(** Permutations that move a vertex of a tetrahedron to the end. *)
Lemma perm_last (p q r s x y z d : N) : Permutation [p; q; r; s] [x; y; z; d] ->
  (d = s /\ Permutation [p; q; r] [x; y; z]) \/ (d = r /\ Permutation [p; q; s] [x; y; z]) \/
  (d = q /\ Permutation [p; r; s] [x; y; z]) \/ (d = p /\ Permutation [q; r; s] [x; y; z]).
Proof.
  intros H. assert (Hd : In d [p; q; r; s]) by (eapply Permutation_in; [symmetry; exact H|simpl; auto]).
  assert (K : forall l, Permutation [p; q; r; s] (l ++ [d]) -> Permutation l [x; y; z]).
  { intros l Hl. apply (Permutation_app_inv_r [d]). rewrite <- Hl. exact H. }
  destruct Hd as [E|[E|[E|[E|[]]]]]; subst d.
  - right; right; right. split; [reflexivity|]. apply K. apply (Permutation_cons_append [q; r; s] p).
  - right; right; left. split; [reflexivity|]. apply K. apply perm_skip. apply (Permutation_cons_append [r; s] q).
  - right; left. split; [reflexivity|]. apply K. apply perm_skip, perm_skip. apply (Permutation_cons_append [s] r).
  - left. split; [reflexivity|]. apply K. reflexivity.
Qed.
Lemma perm_sign (P : N -> point) u v w x y z : Permutation [u; v; w] [x; y; z] ->
  exists s : R, (s = 1 \/ s = -1)%R /\ forall o, v6 P x y z o = (s * v6 P u v w o)%R.
Proof.
  intros H. destruct (perm3 u v w _ H) as [E|[E|[E|[E|[E|E]]]]]; injection E as -> -> ->;
  ((exists 1%R; split; [left; reflexivity|intros o; unfold v6, vol6, det3; ring]) ||
   (exists (-1)%R; split; [right; reflexivity|intros o; unfold v6, vol6, det3; ring])).
Qed.
Lemma perm_sides (P : N -> point) u v w x y z d d' : Permutation [u; v; w] [x; y; z] ->
  (v6 P u v w d * v6 P u v w d' < 0)%R -> (v6 P x y z d * v6 P x y z d' < 0)%R.
Proof.
  intros H Q. destruct (perm_sign P u v w x y z H) as (s & Hs & E). rewrite !E.
  destruct Hs as [-> | ->]; nra.
Qed.

Section Exp.
Context {C : Type} (g : C * C * C -> point) (L3 : forall p, length (g p) = 3) (m : Mesh (C * C * C)) (poly : N -> N -> list point).
Context (xc xf : N -> point).
Let mm := with_points g m.
Hypothesis X : convex_mesh3 mm poly.
Hypothesis SC : simple_cells m poly.
Hypothesis CI : centres_inside m poly xc xf.

Lemma ringP c fs : ring m c fs -> ring mm c fs.
Proof. intros H. apply wp_ring. exact H. Qed.

(** Every side is seen counterclockwise from outside. *)
Lemma orient c fs f e : ring m c fs -> In f fs -> In e (cycle_edges (poly c f)) -> (0 < vol6 (xc c) (xf f) (fst e) (snd e))%R.
Proof.
  intros HR Hf He. destruct (CI c fs HR) as [HI HF]. specialize (HF f Hf).
  destruct (cx3_cell _ _ X c fs (ringP c fs HR)) as [[_ HS] _].
  destruct (HS (poly c f)) as (_ & n & k & Ln & Hk & Hle & Hex & HC); [apply in_map; exact Hf|].
  assert (Lall : forall p, In p (concat (map (poly c) fs)) -> length p = 3).
  { intros p Hp. apply in_concat in Hp as (ws & Hws & Hp). apply in_map_iff in Hws as (h & <- & Hh).
    apply (poly_len mm poly X c fs h p (ringP c fs HR) Hh Hp). }
  assert (Hxk : (sprod n (xc c) < k)%R).
  { apply (inside_le n k _ (xc c) Ln Lall HI).
    - intros p Hp. apply in_concat in Hp as (ws & Hws & Hp). eapply Hle; eassumption.
    - destruct Hex as (ws & v & Hws & Hv & Hlt). exists v. split; [apply in_concat; eauto|exact Hlt]. }
  assert (Lv : forall v, In v (poly c f) -> length v = 3) by (intros v; apply (poly_len mm poly X c fs f v (ringP c fs HR) Hf)).
  exact (proj1 (proj2 (face_orient n k (poly c f) (xc c) (xf f) e Ln Lv (proj1 HI) Hk HC HF Hxk He))).
Qed.
Lemma one_way c fs f a b : ring m c fs -> In f fs -> In (a, b) (cycle_edges (poly c f)) -> In (b, a) (cycle_edges (poly c f)) -> False.
Proof.
  intros HR Hf H H'. pose proof (orient c fs f _ HR Hf H) as A. pose proof (orient c fs f _ HR Hf H') as B. cbn [fst snd] in *.
  rewrite vol6_flip in B. lra.
Qed.

(** The direction in which a cell passes an edge of a face. *)
Definition directed (c f e : N) (d : point * point) : Prop :=
  In d (cycle_edges (poly c f)) /\ exists ab, edge_points mm e (fst ab) (snd ab) /\ (d = ab \/ d = rev_edge ab).

Lemma rev_rev (e : point * point) : rev_edge (rev_edge e) = e.
Proof. destruct e. reflexivity. Qed.
Lemma dir_ex c fs f face e : ring m c fs -> In f fs -> nth_error (m_faces m) (N.to_nat f) = Some face -> In e (f_subs face) ->
  exists d, directed c f e d.
Proof.
  intros HR Hf Hface He. destruct (cx3_cell _ _ X c fs (ringP c fs HR)) as [_ H]. destruct (H f face Hf Hface) as (es & HF & HT).
  destruct (Forall2_In_l _ _ _ _ HF He) as (ab & Hin & Q).
  destruct (traces_out _ _ _ HT Hin) as [K|K]; [exists ab|exists (rev_edge ab)]; (split; [exact K|exists ab; auto]).
Qed.
Lemma dir_inj_face c fs f face e e' d : ring m c fs -> In f fs -> nth_error (m_faces m) (N.to_nat f) = Some face ->
  In e (f_subs face) -> In e' (f_subs face) -> directed c f e d -> directed c f e' d -> e = e'.
Proof.
  intros HR Hf Hface He He' (Hd & ab & Hab & E) (_ & ab' & Hab' & E').
  destruct (cx3_cell _ _ X c fs (ringP c fs HR)) as [_ H]. destruct (H f face Hf Hface) as (es & HF & ds & HP & HD).
  destruct (SC c fs HR) as [_ ND]. rewrite flat_map_map' in ND. pose proof (flat_nodup1 _ _ f ND Hf) as NDf. cbn beta in NDf.
  apply Forall2_nth in HF as [LF HF]. apply Forall2_nth in HD as [LD HD].
  apply In_nth_error in He as (i & Hi). apply In_nth_error in He' as (j & Hj).
  assert (K : forall i e ab, nth_error (f_subs face) i = Some e -> edge_points mm e (fst ab) (snd ab) -> d = ab \/ d = rev_edge ab ->
     nth_error ds i = Some d).
  { clear i j e e' ab ab' Hab Hab' E E' Hi Hj. intros i e ab Hi Hab E.
    assert (Hl : i < length (f_subs face)) by (apply nth_error_Some; congruence).
    destruct (nth_error es i) as [s|] eqn:Es; [|apply nth_error_None in Es; lia].
    destruct (nth_error ds i) as [q|] eqn:Eq; [|apply nth_error_None in Eq; lia].
    pose proof (HF i e s Hi Es) as Hs. destruct (edge_points_det _ _ _ _ _ _ Hs Hab) as [E1 E2].
    assert (s = ab) by (destruct s, ab; cbn in *; congruence). subst s.
    pose proof (HD i ab q Es Eq) as Hq. f_equal.
    assert (In q (cycle_edges (poly c f))) by (eapply Permutation_in; [symmetry; exact HP|eapply nth_error_In; exact Eq]).
    destruct E as [E|E], Hq as [Hq|Hq]; subst; try reflexivity; exfalso; destruct ab as [a b]; unfold rev_edge in *; cbn [fst snd] in *;
      eapply (one_way c fs f a b); eauto. }
  pose proof (K i e ab Hi Hab E) as K1. pose proof (K j e' ab' Hj Hab' E') as K2.
  assert (NDs : NoDup ds) by (eapply Permutation_NoDup; eassumption).
  assert (i = j).
  { apply (proj1 (NoDup_nth_error ds) NDs); [apply nth_error_Some; congruence|congruence]. }
  subst j. congruence.
Qed.
Lemma dir_same_face c fs f f' e e' d : ring m c fs -> In f fs -> In f' fs -> directed c f e d -> directed c f' e' d -> f = f'.
Proof.
  intros HR Hf Hf' (Hd & _) (Hd' & _). destruct (SC c fs HR) as [_ ND]. rewrite flat_map_map' in ND.
  destruct (N.eq_dec f f') as [|Ne]; [assumption|exfalso].
  exact (flat_disjoint (fun f => cycle_edges (poly c f)) fs f f' d ND Hf Hf' Hd Hd' Ne).
Qed.
(** Another cell passes the edges of a common face in the other direction. *)
Lemma dir_other c c' fs fs' f e d : ring m c fs -> ring m c' fs' -> In f fs -> In f fs' -> c <> c' ->
  In d (cycle_edges (poly c f)) -> In e (cycle_edges (poly c' f)) -> e = d -> False.
Proof.
  intros HR HR' Hf Hf' Ne Hd He ->.
  destruct (ring_sides mm c fs f (ringP c fs HR) Hf) as (face & Hface & Hs).
  destruct (ring_sides mm c' fs' f (ringP c' fs' HR') Hf') as (face' & Hface' & Hs').
  assert (face' = face) by congruence. subst face'.
  assert (IC : forall c fs, ring m c fs -> is_cell mm c = true).
  { intros i gs Hr. unfold is_cell. apply N.ltb_lt. destruct Hr as (f0 & r & _ & Hc & _).
    change (length (m_cells mm)) with (length (m_cells m)). assert (N.to_nat i < length (m_cells m)); [|lia].
    apply nth_error_Some; congruence. }
  pose proof (IC c fs HR) as Ic. pose proof (IC c' fs' HR') as Ic'.
  pose proof (cx3_inner _ _ X f face Hface) as HIn. cbv zeta in HIn.
  destruct Hs as [Hs|Hs], Hs' as [Hs'|Hs']; try congruence; rewrite Hs, Hs' in HIn.
  - specialize (HIn Ic Ic' d Hd). destruct d as [a b]. exact (one_way c' fs' f a b HR' Hf' He HIn).
  - specialize (HIn Ic' Ic d He). destruct d as [a b]. exact (one_way c fs f a b HR Hf Hd HIn).
Qed.
End Exp.

(** * The tetrahedra as vertex numbers *)
Section Tets.
Context {C : Type} (g : C * C * C -> point) (L3 : forall p, length (g p) = 3) (m : Mesh (C * C * C)) (poly : N -> N -> list point).
Context (ccenter fcenter : N -> C * C * C) (key : C * C * C -> string) (extra : list (C * C * C)).
Let xc := fun c => g (ccenter c).
Let xf := fun f => g (fcenter f).
Let mm := with_points g m.
Hypothesis D3 : m_dim m = 3.
Hypothesis X : convex_mesh3 mm poly.
Hypothesis SC : simple_cells m poly.
Hypothesis CI : centres_inside m poly xc xf.
Hypothesis CT : centres_told m ccenter fcenter key.
Hypothesis AC : forall p, In p extra -> is_centre m ccenter fcenter p.
Let pts := m_verts m ++ extra.
Let nv := length (m_verts m).
Let P := point_of g pts.

Definition valid (c f e : N) : Prop :=
  exists fs face, ring m c fs /\ In f fs /\ nth_error (m_faces m) (N.to_nat f) = Some face /\ In e (f_subs face).
Definition isF (v f : N) : Prop := exists p, nth_error pts (N.to_nat v) = Some p /\ key p = key (fcenter f).
Definition isC (v c : N) : Prop := exists p, nth_error pts (N.to_nat v) = Some p /\ key p = key (ccenter c).
Record tet_at (c f e : N) (vs : list N) (s t fi ci : N) : Prop := {
  ta_valid : valid c f e;
  ta_perm : Permutation vs [s; t; fi; ci];
  ta_dir : directed g m poly c f e (P s, P t);
  ta_f : P fi = xf f; ta_c : P ci = xc c;
  ta_s : N.to_nat s < nv; ta_t : N.to_nat t < nv; ta_lf : nv <= N.to_nat fi; ta_lc : nv <= N.to_nat ci;
  ta_isf : isF fi f; ta_isc : isC ci c
}.

Lemma valid_lt c f e : valid c f e -> (c < N.of_nat (length (m_cells m)))%N /\ (f < N.of_nat (length (m_faces m)))%N.
Proof.
  intros (fs & face & (f0 & r & _ & Hc & _) & _ & Hf & _).
  assert (N.to_nat c < length (m_cells m)) by (apply nth_error_Some; congruence).
  assert (N.to_nat f < length (m_faces m)) by (apply nth_error_Some; congruence). lia.
Qed.
Lemma isF_inj v c f e c' f' e' : valid c f e -> valid c' f' e' -> isF v f -> isF v f' -> f = f'.
Proof.
  intros V V' (p & Hp & K) (p' & Hp' & K'). assert (p' = p) by congruence. subst p'.
  apply valid_lt in V as [_ V]. apply valid_lt in V' as [_ V']. apply (ct_faces _ _ _ _ CT); auto. congruence.
Qed.
Lemma isC_inj v c f e c' f' e' : valid c f e -> valid c' f' e' -> isC v c -> isC v c' -> c = c'.
Proof.
  intros V V' (p & Hp & K) (p' & Hp' & K'). assert (p' = p) by congruence. subst p'.
  apply valid_lt in V as [V _]. apply valid_lt in V' as [V' _]. apply (ct_cells _ _ _ _ CT); auto. congruence.
Qed.
Lemma isFC v c f e c' f' e' : valid c f e -> valid c' f' e' -> isF v f -> isC v c' -> False.
Proof.
  intros V V' (p & Hp & K) (p' & Hp' & K'). assert (p' = p) by congruence. subst p'.
  apply valid_lt in V as [_ V]. apply valid_lt in V' as [V' _]. apply (ct_apart _ _ _ _ CT c' f); auto. congruence.
Qed.

Lemma point_pts v p : nth_error pts (N.to_nat v) = Some p -> P v = g p.
Proof. intros H. unfold P, point_of. rewrite H. reflexivity. Qed.

Lemma tetra_at c f e x : valid c f e -> tetra_of m ccenter fcenter key pts c (f, e) x ->
  (forall v, In v (fst x) -> (v < N.of_nat (length pts))%N) /\ snd x = TETRA /\ (exists a b fi ci, fst x = [a; b; fi; ci]) /\
  exists s t fi ci, tet_at c f e (fst x) s t fi ci.
Proof.
  intros V (a & b & fi & ci & p & q & -> & He & Hp & Kp & Hq & Kq & Lf & Lc). cbn [fst snd] in *.
  pose proof (valid_lt _ _ _ V) as [Vc Vf]. pose proof V as (fs & face & HR & Hf & Hface & Hin).
  assert (EC : forall p, In p extra -> (key p = key (fcenter f) -> p = fcenter f) /\ (key p = key (ccenter c) -> p = ccenter c)).
  { intros r Hr. destruct (AC r Hr) as [(c' & Hc' & ->)|(f' & Hf' & ->)]; split; intros E.
    - exfalso. exact (ct_apart _ _ _ _ CT c' f Hc' Vf E).
    - f_equal. apply (ct_cells _ _ _ _ CT); auto.
    - f_equal. apply (ct_faces _ _ _ _ CT); auto.
    - exfalso. apply (ct_apart _ _ _ _ CT c f' Vc Hf'). congruence. }
  assert (EP : forall v r, nth_error pts (N.to_nat v) = Some r -> nv <= N.to_nat v -> In r extra).
  { intros v r Hr Hl. unfold pts in Hr. rewrite nth_error_app2 in Hr by exact Hl. eapply nth_error_In. exact Hr. }
  assert (Pf : P fi = xf f).
  { rewrite (point_pts fi p Hp). unfold xf. f_equal. apply EC; [exact (EP fi p Hp Lf)|exact Kp]. }
  assert (Pc : P ci = xc c).
  { rewrite (point_pts ci q Hq). unfold xc. f_equal. apply EC; [exact (EP ci q Hq Lc)|exact Kq]. }
  destruct (dir_ex g m poly X c fs f face e HR Hf Hface Hin) as (d & Hd).
  assert (Hd' := Hd). destruct Hd' as (_ & ab & (i & j & Hs & Hi & Hj) & E).
  assert (Es : subs (with_points g m) 1 e = Ok [a; b]).
  { unfold subs. cbn [with_points m_dim m_mid]. rewrite D3. cbn [Nat.sub Nat.eqb]. apply vat_ok. exact He. }
  rewrite Es in Hs. injection Hs as <- <-.
  assert (PV : forall v r, nth_error (m_verts (with_points g m)) (N.to_nat v) = Some r -> P v = r /\ N.to_nat v < nv).
  { intros v r Hr. unfold with_points in Hr. cbn [m_verts] in Hr. rewrite nth_error_map in Hr.
    destruct (nth_error (m_verts m) (N.to_nat v)) as [r'|] eqn:Er; [|discriminate Hr]. injection Hr as <-.
    assert (Hl : N.to_nat v < nv) by (apply nth_error_Some; congruence). split; [|exact Hl].
    apply point_pts. unfold pts. rewrite nth_error_app1 by exact Hl. exact Er. }
  apply PV in Hi as [Pa La]. apply PV in Hj as [Pb Lb].
  assert (LT : forall v r, nth_error pts (N.to_nat v) = Some r -> N.to_nat v < length pts) by (intros v r H; apply nth_error_Some; congruence).
  assert (Lp : length pts = nv + length extra) by (unfold pts; apply app_length).
  splits; [|reflexivity|eauto|].
  - intros v [<-|[<-|[<-|[<-|[]]]]]; [lia|lia| |]; [apply LT in Hp|apply LT in Hq]; lia.
  - destruct E as [E|E].
    + exists a, b, fi, ci. constructor; auto; [|exists p; auto|exists q; auto].
      replace (P a, P b) with d; [exact Hd|]. subst d. destruct ab; cbn in *; congruence.
    + exists b, a, fi, ci. constructor; auto; [apply perm_swap| |exists p; auto|exists q; auto].
      replace (P b, P a) with d; [exact Hd|]. subst d. destruct ab; unfold rev_edge; cbn in *; congruence.
Qed.

(** A written tetrahedron is not flat: its orientation. *)
Lemma tet_oriented c f e vs s t fi ci : tet_at c f e vs s t fi ci -> (0 < v6 P ci fi s t)%R.
Proof.
  intros [(fs & face & HR & Hf & Hface & Hin) _ (Hd & _) Ef Ec _ _ _ _ _ _]. unfold v6. rewrite Ef, Ec.
  exact (orient g m poly xc xf X CI c fs f (P s, P t) HR Hf Hd).
Qed.

Ltac member J := destruct J as [?K|[?K|[?K|[]]]]; [simpl; tauto| | |]; congruence.
Ltac pairs J J' := destruct J as [?K|[?K|[?K|[]]]]; [simpl; tauto| | |]; destruct J' as [?K'|[?K'|[?K'|[]]]]; try (simpl; tauto); congruence.
Lemma opposite (a b : R) : (0 < a)%R -> (0 < b)%R -> (a * - b < 0)%R /\ (- a * b < 0)%R.
Proof. intros A B. pose proof (Rmult_lt_0_compat a b A B). lra. Qed.
Ltac opposite A B := first [eapply Rle_lt_trans; [|exact (proj1 (opposite _ _ A B))]|eapply Rle_lt_trans; [|exact (proj2 (opposite _ _ A B))]]; apply Req_le; unfold v6, vol6, det3; ring.

Lemma tets_sides c f e vs s t fi ci c' f' e' vs' s' t' fi' ci' x y z d d' :
  tet_at c f e vs s t fi ci -> tet_at c' f' e' vs' s' t' fi' ci' -> (c, f, e) <> (c', f', e') ->
  Permutation vs [x; y; z; d] -> Permutation vs' [x; y; z; d'] -> (v6 P x y z d * v6 P x y z d' < 0)%R.
Proof.
  intros T T' Ne Hp Hp'. pose proof (tet_oriented _ _ _ _ _ _ _ _ T) as O. pose proof (tet_oriented _ _ _ _ _ _ _ _ T') as O'.
  destruct T as [V PP Di Ef Ec Ls Lt Lf Lc If Ic]. destruct T' as [V' PP' Di' Ef' Ec' Ls' Lt' Lf' Lc' If' Ic'].
  rewrite PP in Hp. rewrite PP' in Hp'. clear PP PP'.
  assert (NF : fi <> ci') by (intros ->; exact (isFC _ _ _ _ _ _ _ V V' If Ic')).
  assert (NC : ci <> fi') by (intros ->; exact (isFC _ _ _ _ _ _ _ V' V If' Ic)).
  assert (EF : fi = fi' -> f = f') by (intros ->; exact (isF_inj _ _ _ _ _ _ _ V V' If If')).
  assert (EC : ci = ci' -> c = c') by (intros ->; exact (isC_inj _ _ _ _ _ _ _ V V' Ic Ic')).
  assert (LL : forall a b, N.to_nat a < nv -> nv <= N.to_nat b -> a <> b) by (intros a b A B ->; lia).
  pose proof V as (fs & face & HR & Hf & Hface & Hin). pose proof V' as (fs' & face' & HR' & Hf' & Hface' & Hin').
  assert (RD : c = c' -> fs = fs').
  { intros ->. exact (ring_det m c' fs fs' HR HR'). }
  assert (FD : f = f' -> face = face') by (intros ->; congruence).
  (* same cell, same direction: the same face and edge *)
  assert (SAME : c = c' -> (P s, P t) = (P s', P t') -> False).
  { intros Q1 Q2. pose proof (RD Q1) as Q3. subst c' fs'. rewrite <- Q2 in Di'.
    pose proof (dir_same_face g m poly SC c fs f f' e e' _ HR Hf Hf' Di Di') as Q4. subst f'. pose proof (FD eq_refl) as Q5. subst face'.
    pose proof (dir_inj_face g m poly xc xf X SC CI c fs f face e e' _ HR Hf Hface Hin Hin' Di Di') as Q6. subst e'. congruence. }
  assert (DF : forall q, In q [s'; t'] -> fi <> q /\ ci <> q) by (intros q [<-|[<-|[]]]; split; intros E; subst; lia).
  assert (DF' : forall q, In q [s; t] -> fi' <> q /\ ci' <> q) by (intros q [<-|[<-|[]]]; split; intros E; subst; lia).
  pose proof (DF s' (or_introl eq_refl)) as [F1 F2]. pose proof (DF t' (or_intror (or_introl eq_refl))) as [F3 F4].
  pose proof (DF' s (or_introl eq_refl)) as [F5 F6]. pose proof (DF' t (or_intror (or_introl eq_refl))) as [F7 F8]. clear DF DF' LL.
  destruct (perm_last _ _ _ _ _ _ _ _ Hp) as [[-> Q]|[[-> Q]|[[-> Q]|[-> Q]]]];
  destruct (perm_last _ _ _ _ _ _ _ _ Hp') as [[-> Q']|[[-> Q']|[[-> Q']|[-> Q']]]];
  apply (perm_sides P _ _ _ _ _ _ _ _ Q); rewrite <- Q in Q'; clear Q Hp Hp';
  pose proof (fun v => Permutation_in v Q') as J1; pose proof (fun v => Permutation_in v (Permutation_sym Q')) as J2.
  - (* s t fi *)
    assert (fi = fi') as Efi by (member (J2 fi)). subst fi'. specialize (EF eq_refl). subst f'.
    apply (Permutation_app_inv_r [fi] [s'; t'] [s; t]) in Q'.
    assert (Ne' : c <> c').
    { intros Q1. apply Permutation_length_2_inv in Q' as [E|E]; injection E as E1 E2; subst s' t'.
      - exact (SAME Q1 eq_refl).
      - pose proof (RD Q1) as Q2. subst c' fs'. exact (one_way g m poly xc xf X CI c fs f _ _ HR Hf (proj1 Di) (proj1 Di')). }
    apply Permutation_length_2_inv in Q' as [E|E]; injection E as E1 E2; subst s' t'.
    + exfalso. exact (dir_other g m poly xc xf X CI c c' fs fs' f _ _ HR HR' Hf Hf' Ne' (proj1 Di) (proj1 Di') eq_refl).
    + opposite O O'.
  - exfalso. member (J2 fi).
  - exfalso. pairs (J2 fi) (J1 ci').
  - exfalso. pairs (J2 fi) (J1 ci').
  - exfalso. member (J2 ci).
  - (* s t ci *)
    assert (ci = ci') as Eci by (member (J2 ci)). subst ci'. specialize (EC eq_refl). subst c'.
    apply (Permutation_app_inv_r [ci] [s'; t'] [s; t]) in Q'.
    apply Permutation_length_2_inv in Q' as [E|E]; injection E as E1 E2; subst s' t'.
    + exfalso. exact (SAME eq_refl eq_refl).
    + opposite O O'.
  - exfalso. pairs (J2 ci) (J1 fi').
  - exfalso. pairs (J2 ci) (J1 fi').
  - exfalso. pairs (J2 fi) (J2 ci).
  - exfalso. pairs (J2 fi) (J2 ci).
  - (* s fi ci, s' fi' ci' *)
    assert (fi = fi') as Efi by (member (J2 fi)). subst fi'. specialize (EF eq_refl). subst f'.
    assert (ci = ci') as Eci by (member (J2 ci)). subst ci'. specialize (EC eq_refl). subst c'.
    assert (s = s') as Es by (member (J2 s)). subst s'. exfalso.
    apply SAME; [reflexivity|]. f_equal. exact (cycle_from _ _ _ _ (proj1 (SC c fs HR) f Hf) (proj1 Di) (proj1 Di')).
  - assert (fi = fi') as Efi by (member (J2 fi)). subst fi'. specialize (EF eq_refl). subst f'.
    assert (ci = ci') as Eci by (member (J2 ci)). subst ci'. specialize (EC eq_refl). subst c'.
    assert (s = t') as Es by (member (J2 s)). subst t'.
    opposite O O'.
  - exfalso. pairs (J2 fi) (J2 ci).
  - exfalso. pairs (J2 fi) (J2 ci).
  - assert (fi = fi') as Efi by (member (J2 fi)). subst fi'. specialize (EF eq_refl). subst f'.
    assert (ci = ci') as Eci by (member (J2 ci)). subst ci'. specialize (EC eq_refl). subst c'.
    assert (t = s') as Es by (member (J2 t)). subst s'.
    opposite O O'.
  - assert (fi = fi') as Efi by (member (J2 fi)). subst fi'. specialize (EF eq_refl). subst f'.
    assert (ci = ci') as Eci by (member (J2 ci)). subst ci'. specialize (EC eq_refl). subst c'.
    assert (t = t') as Es by (member (J2 t)). subst t'. exfalso.
    apply SAME; [reflexivity|]. f_equal. exact (cycle_to _ _ _ _ (proj1 (SC c fs HR) f Hf) (proj1 Di) (proj1 Di')).
Qed.
End Tets.

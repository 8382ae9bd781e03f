(** C78: a loaded mesh whose cells are the convex polyhedra of a file. *)
From Coq Require Import Reals Lra Permutation List.
Import ListNotations.
From Verif Require Import P_Base M_Conn S_Conn P_Conn M_Index M_Mesh M_Apply S_Mesh P_Apply M_Vec S_Vec P_Vec M_Geom S_Geom P_Geom
  S_Polygon P_Polygon S_Flux P_Flux T_Flux S_Convex P_Convex M_FPMA S_FPMA P_FPMA P_FPMAWrite P_Bnd P_VTK3 Ex_Mesh Ex_Geom T_ConvexVTK.
Local Open Scope nat_scope.
Local Open Scope list_scope.

Lemma cycle_side (P : N -> point) vs e : In e (cycle_edges (map P vs)) -> exists i a b, side vs i a b /\ e = (P a, P b).
Proof.
  intros H. apply In_nth_error in H as (i & Hi).
  assert (Hl : i < length vs). { assert (i < length (cycle_edges (map P vs))) by (apply nth_error_Some; congruence). rewrite cycle_length, map_length in H. exact H. }
  destruct (side_at vs i Hl) as (a & b & S). exists i, a, b. split; [exact S|].
  rewrite (side_cycle P vs i a b S) in Hi. congruence.
Qed.

Lemma traces_perm (es es' ds : list (point * point)) : Permutation es es' -> traces es' ds -> traces es ds.
Proof.
  intros HP (ds' & P' & F).
  assert (Q : forall (l l' : list (point * point)), Permutation l' l -> forall d, Forall2 (fun e d => d = e \/ d = rev_edge e) l d ->
     exists d', Permutation d d' /\ Forall2 (fun e d => d = e \/ d = rev_edge e) l' d').
  { intros l l' Hp d Fd. apply Permutation_sym in Hp. revert d Fd. induction Hp; intros d Fd.
    - exists d. auto.
    - inversion Fd as [|? y ? d0 A1 A2]; subst. destruct (IHHp _ A2) as (d' & A & B). exists (y :: d'). split; [now constructor|now constructor].
    - inversion Fd as [|? y0 ? d0 A1 Fd']; subst. inversion Fd' as [|? y1 ? d1 A2 Fd'']; subst.
      exists (y1 :: y0 :: d1). split; [constructor|]. do 2 (constructor; [assumption|]). assumption.
    - destruct (IHHp1 _ Fd) as (d1 & A & B). destruct (IHHp2 _ B) as (d2 & A2 & B2). exists d2. split; [now transitivity d1|exact B2]. }
  destruct (Q es' es HP ds' F) as (d2 & A & B). exists d2. split; [now transitivity ds'|exact B].
Qed.

Section Listed.
Context {V : Type} (g : V -> point) (m : Mesh V) (edges : list (list N)) (ess : list (list N)) (poly : N -> N -> list N).
Definition vpoint (v : N) : point := match nth_error (m_verts m) (N.to_nat v) with Some p => g p | None => [] end.
Hypotheses (D : m_dim m = 3) (M : m_mid m = [edges]) (L3 : forall p, length (g p) = 3) (W : wf_mesh m)
  (LC : length (m_cells m) = length ess) (SZ : (N.of_nat (length ess) <= 2 ^ 63)%N)
  (RI : forall c es, nth_error ess (N.to_nat c) = Some es -> ring m c es)
  (LR : forall i f, nth_error (m_faces m) i = Some f ->
       cellLeft (bc (f_conn f)) = nth 0 (listing ess (N.of_nat i)) INVALID /\
       cellRight (bc (f_conn f)) = nth 1 (listing ess (N.of_nat i)) INVALID)
  (CF : forall i, i < length (m_faces m) -> exists es, In es ess /\ In (N.of_nat i) es)
  (CE : forall i, i < length edges -> exists f, In f (m_faces m) /\ In (N.of_nat i) (f_subs f))
  (PB : forall c es f face, nth_error ess (N.to_nat c) = Some es -> In f es -> nth_error (m_faces m) (N.to_nat f) = Some face ->
       bounds edges (f_subs face) (poly c f))
  (CX : forall c es, nth_error ess (N.to_nat c) = Some es -> convex_solid (map (fun f => map vpoint (poly c f)) es))
  (OP : forall c c' f, In c (listing ess f) -> In c' (listing ess f) -> c <> c' ->
       forall i a b, side (poly c f) i a b -> exists j, side (poly c' f) j b a).
Let mm : Mesh point := with_points g m.

Lemma size_invalid : (N.of_nat (length ess) <= INVALID)%N.
Proof. clear - SZ. etransitivity; [exact SZ|]. vm_compute. discriminate. Qed.

Lemma listed_face i face : nth_error (m_faces m) i = Some face -> exists c es, nth_error ess (N.to_nat c) = Some es /\ In (N.of_nat i) es.
Proof.
  intros Hf. destruct (CF i) as (es & Hes & Hin). { apply nth_error_Some. congruence. }
  apply In_nth_error in Hes as (c & Hc). exists (N.of_nat c), es. rewrite Nat2N.id. auto.
Qed.

Lemma face_subs2 f face : nth_error (m_faces m) (N.to_nat f) = Some face -> subs m 2 f = Ok (f_subs face).
Proof. intros Hf. unfold subs. rewrite D. cbn [Nat.sub Nat.eqb]. rewrite (proj2 (vat_ok _ _ _) Hf). reflexivity. Qed.

Lemma edge_subs1 e ab : subs m 1 e = Ok ab <-> nth_error edges (N.to_nat e) = Some ab.
Proof. unfold subs. rewrite D, M. cbn [Nat.sub Nat.eqb nth]. apply vat_ok. Qed.

Lemma vert_point v p : nth_error (m_verts mm) (N.to_nat v) = Some p -> p = vpoint v.
Proof.
  unfold mm, with_points, vpoint. cbn [m_verts]. rewrite nth_error_map. destruct (nth_error (m_verts m) (N.to_nat v)); [|discriminate].
  intros [= <-]. reflexivity.
Qed.

(** The ends of an edge of a face are the ends of a side of the polygon. *)
Lemma edge_of_face c es f face e : nth_error ess (N.to_nat c) = Some es -> In f es -> nth_error (m_faces m) (N.to_nat f) = Some face ->
  In e (f_subs face) -> exists i a b, side (poly c f) i a b /\ joins edges e a b.
Proof.
  intros Hes Hin Hf He. destruct (PB c es f face Hes Hin Hf) as (PO & es' & Pm & ND & Ln & S).
  rewrite Pm in He. apply In_nth_error in He as (i & Hi).
  assert (Hl : i < length (poly c f)) by (rewrite <- Ln; apply nth_error_Some; congruence).
  destruct (side_at (poly c f) i Hl) as (a & b & Hs). exists i, a, b. split; [exact Hs|]. exact (S i e a b Hi Hs).
Qed.

Lemma joins_points e a b : joins edges e a b ->
  (exists p q, edge_points mm e p q) -> edge_points mm e (vpoint a) (vpoint b) \/ edge_points mm e (vpoint b) (vpoint a).
Proof.
  intros J (p & q & i & j & Hs & Hi & Hj). pose proof Hs as Hs0. change (subs mm 1 e) with (subs m 1 e) in Hs. apply edge_subs1 in Hs.
  pose proof (vert_point _ _ Hi) as Pi. pose proof (vert_point _ _ Hj) as Pj. subst p q.
  destruct J as [J|J]; rewrite J in Hs; injection Hs as <- <-; [left|right]; eexists; eexists; eauto.
Qed.

Lemma edge_has_points e : N.to_nat e < length edges -> exists p q, edge_points mm e p q.
Proof.
  intros He. pose proof (wp_geo g m 3 D L3 W) as G.
  apply (edge_points_total mm e G). unfold mm, with_points, n_elems. cbn [m_dim m_mid m_verts]. rewrite D, M. cbn [Nat.sub Nat.eqb nth]. lia.
Qed.

Lemma convex_listed : convex_mesh3 mm (fun c f => map vpoint (poly c f)).
Proof.
  pose proof size_invalid as SI.
  assert (SM : sides_match m) by (apply (sides_match_listing m ess LC SI RI LR)).
  assert (EL : forall e p q, edge_points mm e p q -> N.to_nat e < length edges).
  { intros e p q (i & j & Hs & _). change (subs mm 1 e) with (subs m 1 e) in Hs. apply edge_subs1 in Hs. apply nth_error_Some. congruence. }
  constructor.
  - apply (wp_geo g m 3 D L3 W).
  - exact D.
  - intros k i js Hk Hs. change (m_dim mm) with (m_dim m) in Hk. rewrite D in Hk. assert (k = 2) by lia. subst k.
    change (subs mm 2 i) with (subs m 2 i) in Hs. unfold subs in Hs. rewrite D in Hs. cbn [Nat.sub Nat.eqb] in Hs.
    apply bind_ok in Hs as (face & Hf & Hs). injection Hs as <-. apply vat_ok in Hf.
    destruct (listed_face _ _ Hf) as (c & es & Hes & Hin). rewrite N2Nat.id in Hin.
    destruct (PB c es i face Hes Hin Hf) as ([_ PL] & es' & Pm & _ & Ln & _). intros E. rewrite E in Pm.
    apply Permutation_length in Pm. cbn in Pm. lia.
  - intros e a b Hab Eab. subst b. destruct (CE (N.to_nat e) (EL _ _ _ Hab)) as (face & Hface & Hin). rewrite N2Nat.id in Hin.
    apply In_nth_error in Hface as (k & Hk). destruct (listed_face _ _ Hk) as (c & es & Hes & Hf).
    destruct (edge_of_face c es (N.of_nat k) face e Hes Hf) as (i & x & y & Hs & J); [rewrite Nat2N.id; exact Hk|exact Hin|].
    assert (Exy : vpoint x = vpoint y).
    { destruct (joins_points e x y J (ex_intro _ a (ex_intro _ a Hab))) as [Q|Q];
        destruct (edge_points_det mm e _ _ _ _ Hab Q) as [A B]; congruence. }
    destruct (CX c es Hes) as [_ HS]. destruct (HS (map vpoint (poly c (N.of_nat k)))) as (_ & n & kk & _ & _ & _ & _ & HC).
    { apply in_map_iff. exists (N.of_nat k). auto. }
    destruct (HC (vpoint x, vpoint y)) as (_ & q & _ & Hq). { eapply nth_error_In. apply side_cycle. exact Hs. }
    cbn [fst snd] in Hq. rewrite Exy in Hq.
    assert (Z : forall v k, nth k (diff v v) 0%R = 0%R).
    { clear. induction v as [|x v IH]; intros [|k]; cbn; try reflexivity; [ring|apply IH]. }
    assert (T : forall u v w, triple u (diff v v) w = 0%R).
    { intros u v w. unfold triple, det3, px, py, pz. rewrite !Z. ring. }
    rewrite T in Hq. lra.
  - apply wp_sides. exact SM.
  - change (m_cells mm) with (m_cells m). rewrite LC. exact SZ.
  - intros i fs HR. pose proof (proj1 (wp_ring g m i fs) HR) as HR2. clear HR. rename HR2 into HR.
    assert (Hi : N.to_nat i < length (m_cells m)). { destruct HR as (f0 & r & _ & H & _). apply nth_error_Some. congruence. }
    destruct (nth_error ess (N.to_nat i)) as [es|] eqn:Ees; [|apply nth_error_None in Ees; lia].
    assert (fs = es) by (apply (ring_det m i _ _ HR (RI _ _ Ees))). subst es.
    split; [exact (CX i fs Ees)|]. intros f face Hin Hf. change (m_faces mm) with (m_faces m) in Hf.
    destruct (PB i fs f face Ees Hin Hf) as (PO & es' & Pm & ND & Ln & S).
    set (seg := fun e : N => match nth_error edges (N.to_nat e) with Some [a; b] => (vpoint a, vpoint b) | _ => ([], []) end).
    assert (SG : forall e, In e (f_subs face) -> edge_points mm e (fst (seg e)) (snd (seg e)) /\ forall a b, joins edges e a b -> (vpoint a, vpoint b) = seg e \/ (vpoint a, vpoint b) = rev_edge (seg e)).
    { intros e He. destruct (edge_of_face i fs f face e Ees Hin Hf He) as (k & a & b & Hs & J).
      assert (Hl : N.to_nat e < length edges). { destruct J as [J|J]; apply nth_error_Some; congruence. }
      destruct (edge_has_points e Hl) as (p & q & Hpq). unfold seg. split.
      - destruct Hpq as (x & y & Hs' & Hx & Hy). pose proof Hs' as Hs0. change (subs mm 1 e) with (subs m 1 e) in Hs'. apply edge_subs1 in Hs'. rewrite Hs'.
        cbn [fst snd]. exists x, y. rewrite <- (vert_point _ _ Hx), <- (vert_point _ _ Hy). auto.
      - intros x y [J'|J']; rewrite J'; [left|right]; reflexivity. }
    exists (map seg (f_subs face)). split.
    + clear - SG. induction (f_subs face) as [|e l IH]; [constructor|]. constructor.
      * apply SG. left. reflexivity.
      * apply IH. intros e' He'. apply SG. right. exact He'.
    + apply (traces_perm _ (map seg es')); [apply Permutation_map; exact Pm|].
      exists (cycle_edges (map vpoint (poly i f))). split; [apply Permutation_refl|].
      apply Forall2_of_nth; [rewrite cycle_length, !map_length; exact Ln|]. intros k e d He Hd.
      rewrite nth_error_map in He. destruct (nth_error es' k) as [e0|] eqn:Ek; [|discriminate]. injection He as <-.
      assert (Hlt : k < length (poly i f)) by (rewrite <- Ln; apply nth_error_Some; congruence).
      destruct (side_at _ k Hlt) as (x & y & Hxy). rewrite (side_cycle vpoint _ k x y Hxy) in Hd. injection Hd as <-.
      apply SG; [rewrite Pm; eapply nth_error_In; exact Ek|]. exact (S k e0 x y Ek Hxy).
  - intros face Hface. left. change (m_faces mm) with (m_faces m) in Hface. apply In_nth_error in Hface as (k & Hk).
    destruct (listed_face _ _ Hk) as (c & es & Hes & Hin). destruct (LR _ _ Hk) as [-> _].
    change (is_cell m (nth 0 (listing ess (N.of_nat k)) INVALID) = true). unfold is_cell. apply N.ltb_lt. rewrite LC.
    destruct (listing ess (N.of_nat k)) as [|x r] eqn:El.
    { exfalso. assert (H : In c (listing ess (N.of_nat k))) by (apply in_listing; eauto). rewrite El in H. exact H. }
    assert (H : In x (listing ess (N.of_nat k))) by (rewrite El; now left). apply in_listing in H as (es2 & H & _).
    assert (N.to_nat x < length ess) by (apply nth_error_Some; congruence). cbn [nth]. lia.
  - intros f face Hf l r Hl Hr e He. change (m_faces mm) with (m_faces m) in Hf. destruct (LR _ _ Hf) as [El Er]. rewrite N2Nat.id in El, Er.
    change (is_cell m l = true) in Hl. change (is_cell m r = true) in Hr. unfold is_cell in Hl, Hr. apply N.ltb_lt in Hl, Hr. rewrite LC in Hl, Hr.
    assert (Q : In l (listing ess f) /\ In r (listing ess f) /\ l <> r).
    { unfold l, r in *. rewrite El, Er in *. pose proof (listers_NoDup ess 0%N f) as ND. rewrite listers_listing in ND.
      destruct (listing ess f) as [|x [|y t]]; cbn [nth] in *; [lia|lia|]. splits; [now left|right; now left|].
      intros ->. inversion ND as [|? ? Hn _]. apply Hn. left. reflexivity. }
    destruct Q as (Q1 & Q2 & Q3). apply cycle_side in He as (i & a & b & Hs & ->).
    destruct (OP l r f Q1 Q2 Q3 i a b Hs) as (j & Hj). eapply nth_error_In. unfold rev_edge. cbn [fst snd]. apply side_cycle. exact Hj.
Qed.
End Listed.

(** C78, third part: files of tetrahedra, and files as characters. Exact real arithmetic. *)
From Coq Require Import Reals Lra Permutation List QArith Qreals.
Import ListNotations.
From Verif Require Import P_Base M_Conn S_Conn P_Conn M_Index M_Mesh M_Apply S_Mesh P_Apply M_Vec S_Vec P_Vec M_Geom S_Geom P_Geom
  S_Polygon P_Polygon S_Flux P_Flux T_Flux S_Convex P_Convex M_Object T_Object T_Convex3 T_Volume M_FPMA S_FPMA P_Poly P_FPMA P_FPMAWrite P_RoundTrip T_FPMA P_Bnd P_VTK3
  M_VTK S_VTK T_VTK3 Ex_Mesh Ex_Geom T_ConvexVTK S_ConvexFile P_ConvexFile T_ConvexFile.
Local Open Scope nat_scope.
Local Open Scope list_scope.

(** * One tetrahedron *)
Section Tet.
Context (p : N -> point).
Definition v6 (a b c d : N) : R := vol6 (p a) (p b) (p c) (p d).
(** The directions of the faces of a tetrahedron as listed by [faces_of], seen from outside. *)
Definition tet_out (positive : bool) (k : nat) : bool := match k with 0 | 3 => negb positive | _ => positive end.

Lemma v6_swap12 a b c d : v6 b a c d = (- v6 a b c d)%R.
Proof. unfold v6, vol6, det3. ring. Qed.
Lemma v6_swap23 a b c d : v6 a c b d = (- v6 a b c d)%R.
Proof. unfold v6, vol6, det3. ring. Qed.
Lemma v6_swap34 a b c d : v6 a b d c = (- v6 a b c d)%R.
Proof. unfold v6, vol6, det3. ring. Qed.
Lemma v6_same a b c : v6 a a b c = 0%R /\ v6 a b a c = 0%R /\ v6 a b c a = 0%R /\ v6 b a a c = 0%R /\ v6 b a c a = 0%R /\ v6 b c a a = 0%R.
Proof. unfold v6, vol6, det3. repeat split; ring. Qed.

Lemma tet_nodup a b c d : v6 a b c d <> 0%R -> NoDup [a; b; c; d].
Proof.
  intros H. assert (a <> b /\ a <> c /\ a <> d /\ b <> c /\ b <> d /\ c <> d) as (H1 & H2 & H3 & H4 & H5 & H6).
  { splits; intros ->; apply H; apply v6_same; exact 0%N. }
  repeat constructor; simpl; intuition congruence.
Qed.
End Tet.

(** A triangle u v w seen counterclockwise from the side opposite to o. *)
Lemma tri_face (u v w o : point) : length u = 3 -> length v = 3 -> length w = 3 -> length o = 3 -> (vol6 u v w o < 0)%R ->
  exists n k, length n = 3 /\ (forall x, In x [u; v; w] -> sprod n x = k) /\ (sprod n o < k)%R /\ convex_face n [u; v; w].
Proof.
  destruct u as [|u1 [|u2 [|u3 [|]]]]; try discriminate. destruct v as [|v1 [|v2 [|v3 [|]]]]; try discriminate.
  destruct w as [|w1 [|w2 [|w3 [|]]]]; try discriminate. destruct o as [|o1 [|o2 [|o3 [|]]]]; try discriminate. intros _ _ _ _.
  unfold vol6, det3, px, py, pz. cbn [nth]. intros H.
  set (n1 := ((v2 - u2) * (w3 - u3) - (v3 - u3) * (w2 - u2))%R).
  set (n2 := ((v3 - u3) * (w1 - u1) - (v1 - u1) * (w3 - u3))%R).
  set (n3 := ((v1 - u1) * (w2 - u2) - (v2 - u2) * (w1 - u1))%R).
  assert (Hn : (n1 * (o1 - u1) + n2 * (o2 - u2) + n3 * (o3 - u3) < 0)%R) by (unfold n1, n2, n3; lra).
  assert (Hp : (0 < n1 * n1 + n2 * n2 + n3 * n3)%R).
  { destruct (Rtotal_order 0 (n1 * n1 + n2 * n2 + n3 * n3)) as [Hlt|[Heq|Hgt]]; [exact Hlt| |nra].
    exfalso. assert (n1 = 0 /\ n2 = 0 /\ n3 = 0)%R as (E1 & E2 & E3) by (repeat split; nra). rewrite E1, E2, E3 in Hn. lra. }
  exists [n1; n2; n3], (n1 * u1 + n2 * u2 + n3 * u3)%R. splits.
  - reflexivity.
  - intros x [<-|[<-|[<-|[]]]]; cbn [sprod]; unfold n1, n2, n3; ring.
  - cbn [sprod]. lra.
  - intros e He. cbn [cycle_edges path_edges app] in He.
    unfold triple, det3, px, py, pz.
    destruct He as [<-|[<-|[<-|[]]]]; cbn [fst snd diff nth]; (split;
      [intros q [<-|[<-|[<-|[]]]]; cbn [diff nth]; unfold n1, n2, n3 in *; nra|]).
    + exists [w1; w2; w3]. split; [simpl; auto|]. cbn [diff nth]. unfold n1, n2, n3 in *. nra.
    + exists [u1; u2; u3]. split; [simpl; auto|]. cbn [diff nth]. unfold n1, n2, n3 in *. nra.
    + exists [v1; v2; v3]. split; [simpl; auto|]. cbn [diff nth]. unfold n1, n2, n3 in *. nra.
Qed.

Lemma convex_four (F : list (list point)) (a b c d : point) :
  length a = 3 -> length b = 3 -> length c = 3 -> length d = 3 -> closed_surface F ->
  (forall f, In f F -> exists u v w o, f = [u; v; w] /\ (vol6 u v w o < 0)%R /\ (forall x, In x [a; b; c; d] <-> In x [u; v; w; o])) ->
  (forall x, In x [a; b; c; d] -> exists f, In f F /\ In x f) -> convex_solid F.
Proof.
  intros La Lb Lc Ld CS HF HC. split; [exact CS|]. intros f Hf. destruct (HF f Hf) as (u & v & w & o & -> & Hv & Hin).
  assert (L : forall x, In x [a; b; c; d] -> length x = 3) by (intros x [<-|[<-|[<-|[<-|[]]]]]; assumption).
  assert (L' : forall x, In x [u; v; w; o] -> length x = 3) by (intros x Hx; apply L, Hin, Hx).
  split; [discriminate|]. destruct (tri_face u v w o) as (n & k & A & B & Co & D); try (apply L'; simpl; tauto); [exact Hv|].
  exists n, k. splits; [exact A|exact B| | |exact D].
  - intros ws x Hws Hx. destruct (HF ws Hws) as (u' & v' & w' & o' & -> & _ & Hin').
    assert (Hx' : In x [u; v; w; o]). { apply Hin, Hin'. simpl in *. tauto. }
    destruct Hx' as [<-|[<-|[<-|[<-|[]]]]]; try (apply Req_le; apply B; simpl; tauto). now apply Rlt_le.
  - destruct (HC o) as (f & Hf' & Ho). { apply Hin. simpl; tauto. } exists f, o. auto.
Qed.

Lemma tet_solid (a b c d : point) pos : length a = 3 -> length b = 3 -> length c = 3 -> length d = 3 ->
  (if pos : bool then 0 < vol6 a b c d else vol6 a b c d < 0)%R ->
  let F := [turned (negb pos) [a; b; c]; turned pos [a; b; d]; turned pos [b; c; d]; turned (negb pos) [a; c; d]] in
  convex_solid F /\ poly_volume F = (Rabs (vol6 a b c d) / 6)%R.
Proof.
  intros La Lb Lc Ld HV F. split.
  - apply (convex_four F a b c d La Lb Lc Ld); subst F; destruct pos; cbn [turned negb rev app].
    + unfold closed_surface. cbn [flat_map cycle_edges path_edges app map]. unfold rev_edge. cbn [fst snd]. perm_tac.
    + unfold closed_surface. cbn [flat_map cycle_edges path_edges app map]. unfold rev_edge. cbn [fst snd]. perm_tac.
    + intros f [<-|[<-|[<-|[<-|[]]]]]; [exists c, b, a, d|exists a, b, d, c|exists b, c, d, a|exists d, c, a, b];
        (split; [reflexivity|]; split; [unfold vol6, det3 in *; lra|intros x; simpl; tauto]).
    + intros f [<-|[<-|[<-|[<-|[]]]]]; [exists a, b, c, d|exists d, b, a, c|exists d, c, b, a|exists a, c, d, b];
        (split; [reflexivity|]; split; [unfold vol6, det3 in *; lra|intros x; simpl; tauto]).
    + intros x Hx. simpl in Hx. destruct Hx as [<-|[<-|[<-|[<-|[]]]]];
        [exists [c; b; a]|exists [c; b; a]|exists [c; b; a]|exists [a; b; d]]; simpl; tauto.
    + intros x Hx. simpl in Hx. destruct Hx as [<-|[<-|[<-|[<-|[]]]]];
        [exists [a; b; c]|exists [a; b; c]|exists [a; b; c]|exists [d; b; a]]; simpl; tauto.
  - destruct a as [|a1 [|a2 [|a3 [|]]]]; try discriminate. destruct b as [|b1 [|b2 [|b3 [|]]]]; try discriminate.
    destruct c as [|c1 [|c2 [|c3 [|]]]]; try discriminate. destruct d as [|d1 [|d2 [|d3 [|]]]]; try discriminate.
    subst F. destruct pos; cbn [turned negb rev app]; unfold poly_volume, face_fan; cbn [map cycle_edges path_edges app fst snd];
      [rewrite Rabs_pos_eq by lra|rewrite Rabs_left by lra];
      unfold vol6, det3, px, py, pz, Rsum; cbn [nth fold_right]; field.
Qed.

(** * Files of tetrahedra *)
Lemma perm3 (u v w : N) q : Permutation [u; v; w] q ->
  q = [u; v; w] \/ q = [v; w; u] \/ q = [w; u; v] \/ q = [w; v; u] \/ q = [v; u; w] \/ q = [u; w; v].
Proof.
  intros H. pose proof (Permutation_length H) as L. destruct q as [|x [|y [|z [|]]]]; try discriminate.
  assert (Hx : In x [u; v; w]) by (eapply Permutation_in; [symmetry; exact H|simpl; auto]).
  destruct Hx as [<-|[<-|[<-|[]]]].
  - apply Permutation_cons_inv in H. apply Permutation_length_2_inv in H as [H|H]; injection H as -> ->; tauto.
  - assert (H' : Permutation [v; u; w] [v; y; z]) by (etransitivity; [apply perm_swap|exact H]).
    apply Permutation_cons_inv in H'. apply Permutation_length_2_inv in H' as [E|E]; injection E as -> ->; tauto.
  - assert (H' : Permutation [w; u; v] [w; y; z]).
    { etransitivity; [|exact H]. etransitivity; [apply (Permutation_cons_append [u; v] w)|]. reflexivity. }
    apply Permutation_cons_inv in H'. apply Permutation_length_2_inv in H' as [E|E]; injection E as -> ->; tauto.
Qed.
Lemma side_in p i a b : side p i a b -> In a p /\ In b p.
Proof. intros [A B]. split; eapply nth_error_In; eassumption. Qed.
Lemma same_sides_perm p q : NoDup p -> NoDup q -> same_sides p q -> Permutation p q.
Proof.
  assert (G : forall p q, same_sides p q -> forall x, In x p -> In x q).
  { intros p' q' H x Hx. apply In_nth_error in Hx as (i & Hi). assert (Hl : i < length p') by (apply nth_error_Some; congruence).
    destruct (side_at p' i Hl) as (a & b & Hs). assert (a = x) by (destruct Hs; congruence). subst a.
    destruct (proj1 (H x b)) as (j & [Hj|Hj]); [exists i; auto| |]; apply side_in in Hj; tauto. }
  intros Np Nq H. apply NoDup_Permutation; auto. intros x. split; [now apply G|apply G]. intros a b. symmetry. apply H.
Qed.
Lemma side3_rev (u v w : N) q i a b : q = [w; v; u] \/ q = [v; u; w] \/ q = [u; w; v] -> side [u; v; w] i a b -> exists j, side q j b a.
Proof.
  intros Hq [Ha Hb]. assert (i < 3) by (change 3 with (length [u; v; w]); apply nth_error_Some; congruence).
  destruct i as [|[|[|]]]; try lia; cbn in Ha, Hb; injection Ha as <-; injection Hb as <-; destruct Hq as [ -> | [ -> | -> ] ];
  solve [exists 0; split; reflexivity|exists 1; split; reflexivity|exists 2; split; reflexivity].
Qed.

Ltac perm4 :=
  match goal with |- Permutation [] [] => constructor
  | |- Permutation (?a :: ?l) [?a; ?b; ?c; ?d] => apply (Permutation_cons_app [] [b; c; d] a); cbn [app]; perm4
  | |- Permutation (?a :: ?l) [?b; ?a; ?c; ?d] => apply (Permutation_cons_app [b] [c; d] a); cbn [app]; perm4
  | |- Permutation (?a :: ?l) [?b; ?c; ?a; ?d] => apply (Permutation_cons_app [b; c] [d] a); cbn [app]; perm4
  | |- Permutation (?a :: ?l) [?b; ?c; ?d; ?a] => apply (Permutation_cons_app [b; c; d] [] a); cbn [app]; perm4
  | |- Permutation (?a :: ?l) [?a; ?b; ?c] => apply (Permutation_cons_app [] [b; c] a); cbn [app]; perm4
  | |- Permutation (?a :: ?l) [?b; ?a; ?c] => apply (Permutation_cons_app [b] [c] a); cbn [app]; perm4
  | |- Permutation (?a :: ?l) [?b; ?c; ?a] => apply (Permutation_cons_app [b; c] [] a); cbn [app]; perm4
  | |- Permutation (?a :: ?l) [?a; ?b] => apply (Permutation_cons_app [] [b] a); cbn [app]; perm4
  | |- Permutation (?a :: ?l) [?b; ?a] => apply (Permutation_cons_app [b] [] a); cbn [app]; perm4
  | |- Permutation (?a :: ?l) [?a] => apply (Permutation_cons_app [] [] a); cbn [app]; perm4
  end.
Section Grid.
Context {C : Type} (g : C * C * C -> point) (F : vtk_file C) (L3 : forall p, length (g p) = 3) (T : tet_grid g F).
Let P := point_of g (vf_pts F).
Definition cell_positive (vs : list N) : bool :=
  match vs with [a; b; c; d] => if Rlt_dec 0 (v6 P a b c d) then true else false | _ => true end.
Definition tets_out (c : N) : nat -> bool := tet_out (cell_positive (nth (N.to_nat c) (vf_cells F) [])).

Lemma tet_of vs : In vs (vf_cells F) -> exists a b c d, vs = [a; b; c; d] /\ NoDup vs /\
  (forall v, In v vs -> length (P v) = 3) /\ (if cell_positive vs then 0 < v6 P a b c d else v6 P a b c d < 0)%R.
Proof.
  intros H. destruct (tg_cell g F T vs H) as (R & a & b & c & d & -> & V). exists a, b, c, d. splits; [reflexivity| | |].
  - apply (tet_nodup P). exact V.
  - intros v Hv. unfold P, point_of. destruct (nth_error (vf_pts F) (N.to_nat v)) eqn:E; [apply L3|].
    apply nth_error_None in E. specialize (R v Hv). lia.
  - cbn [cell_positive]. destruct (Rlt_dec 0 (v6 P a b c d)) as [Hp|Hp]; [exact Hp|]. unfold v6, P in *. lra.
Qed.
Lemma tet_face vs q : In vs (vf_cells F) -> In q (faces_of vs) -> exists x y z o, q = [x; y; z] /\ Permutation vs [x; y; z; o].
Proof.
  intros H Hq. destruct (tet_of vs H) as (a & b & c & d & -> & _). cbn in Hq.
  destruct Hq as [<-|[<-|[<-|[<-|[]]]]]; [exists a, b, c, d|exists a, b, d, c|exists b, c, d, a|exists a, c, d, b]; (split; [reflexivity|perm4]).
Qed.
Lemma tet_outer vs q : In vs (vf_cells F) -> In q (outer_faces (tet_out (cell_positive vs)) vs) ->
  exists x y z o, q = [x; y; z] /\ Permutation vs [x; y; z; o] /\ (v6 P x y z o < 0)%R.
Proof.
  intros H Hq. destruct (tet_of vs H) as (a & b & c & d & -> & _ & _ & V). revert Hq V. generalize (cell_positive [a; b; c; d]). intros pos Hq V.
  destruct pos; cbn in Hq.
  - destruct Hq as [<-|[<-|[<-|[<-|[]]]]]; [exists c, b, a, d|exists a, b, d, c|exists b, c, d, a|exists d, c, a, b];
      (split; [reflexivity|split; [perm4|unfold v6, vol6, det3 in *; lra]]).
  - destruct Hq as [<-|[<-|[<-|[<-|[]]]]]; [exists a, b, c, d|exists d, b, a, c|exists d, c, b, a|exists a, c, d, b];
      (split; [reflexivity|split; [perm4|unfold v6, vol6, det3 in *; lra]]).
Qed.
Lemma nodup3 (vs : list N) x y z o : NoDup vs -> Permutation vs [x; y; z; o] -> NoDup [x; y; z].
Proof.
  intros N Hp. pose proof (Permutation_NoDup Hp N) as H. apply (NoDup_remove_1 [x; y; z] [] o) in H. exact H.
Qed.
Lemma tet_nodup' vs : In vs (vf_cells F) -> NoDup vs.
Proof. intros H. destruct (tet_of vs H) as (a & b & c & d & _ & N & _). exact N. Qed.

Lemma tets_three vs1 vs2 vs3 c1 c2 c3 q1 q2 q3 p :
  nth_error (vf_cells F) c1 = Some vs1 -> nth_error (vf_cells F) c2 = Some vs2 -> nth_error (vf_cells F) c3 = Some vs3 ->
  c1 <> c2 -> c1 <> c3 -> c2 <> c3 -> In q1 (faces_of vs1) -> In q2 (faces_of vs2) -> In q3 (faces_of vs3) ->
  same_sides p q1 -> same_sides p q2 -> same_sides p q3 -> False.
Proof.
  intros H1 H2 H3 N12 N13 N23 I1 I2 I3 S1 S2 S3.
  assert (A1 := nth_error_In _ _ H1). assert (A2 := nth_error_In _ _ H2). assert (A3 := nth_error_In _ _ H3).
  destruct (tet_face vs1 q1 A1 I1) as (x & y & z & o1 & -> & P1).
  assert (Q : forall vs q, In vs (vf_cells F) -> In q (faces_of vs) -> same_sides p q -> exists o, Permutation vs [x; y; z; o]).
  { intros vs q A I S. destruct (tet_face vs q A I) as (x' & y' & z' & o & -> & P'). exists o. rewrite P'.
    apply (Permutation_app_tail [o] (l := [x'; y'; z']) (l' := [x; y; z])). apply same_sides_perm.
    - exact (nodup3 vs x' y' z' o (tet_nodup' vs A) P').
    - exact (nodup3 vs1 x y z o1 (tet_nodup' vs1 A1) P1).
    - intros a b. rewrite <- (S a b). apply S1. }
  destruct (Q vs2 q2 A2 I2 S2) as (o2 & P2). destruct (Q vs3 q3 A3 I3 S3) as (o3 & P3).
  pose proof (tg_sides g F T c1 c2 vs1 vs2 x y z o1 o2 H1 H2 N12 P1 P2) as B12.
  pose proof (tg_sides g F T c1 c3 vs1 vs3 x y z o1 o3 H1 H3 N13 P1 P3) as B13.
  pose proof (tg_sides g F T c2 c3 vs2 vs3 x y z o2 o3 H2 H3 N23 P2 P3) as B23.
  cbv zeta in B12, B13, B23.
  set (r1 := vol6 _ _ _ (point_of g (vf_pts F) o1)) in *. set (r2 := vol6 _ _ _ (point_of g (vf_pts F) o2)) in *.
  set (r3 := vol6 _ _ _ (point_of g (vf_pts F) o3)) in *.
  destruct (Rlt_dec 0 r1), (Rlt_dec 0 r2), (Rlt_dec 0 r3); nra.
Qed.

Lemma tet_grid_convex : convex_grid3 g F tets_out.
Proof.
  constructor.
  - constructor.
    + intros vs H. destruct (tet_of vs H) as (a & b & c & d & -> & N & _). split; [exact N|]. simpl. auto.
    + intros p l ND H. destruct l as [|c1 [|c2 [|c3 l]]]; cbn; try lia. exfalso.
      destruct (H c1) as (vs1 & q1 & A1 & I1 & S1); [simpl; auto|]. destruct (H c2) as (vs2 & q2 & A2 & I2 & S2); [simpl; auto|].
      destruct (H c3) as (vs3 & q3 & A3 & I3 & S3); [simpl; auto|].
      apply NoDup_cons_iff in ND as [N1 ND]. apply NoDup_cons_iff in ND as [N2 _].
      eapply (tets_three vs1 vs2 vs3 (N.to_nat c1) (N.to_nat c2) (N.to_nat c3) q1 q2 q3 p); eauto; intros E; apply N2Nat.inj in E; subst;
      simpl in N1, N2; tauto.
    + exact (tg_size g F T).
    + exact (tg_types g F T).
  - pose proof (tg_size g F T) as S. assert (E : INVALID = (2 ^ 64 - 1)%N) by reflexivity. rewrite E in S. clear E.
    assert (2 ^ 64 - 1 = 18446744073709551615)%N by reflexivity. assert (2 ^ 63 = 9223372036854775808)%N by reflexivity. lia.
  - intros vs v H Hv. exact (proj1 (tg_cell g F T vs H) v Hv).
  - intros c vs Hc. pose proof (nth_error_In _ _ Hc) as H. destruct (tet_of vs H) as (a & b & c' & d & E & _ & L & V).
    unfold vtk_solid, tets_out. rewrite (nth_error_nth _ _ _ Hc). subst vs. set (pos := cell_positive [a; b; c'; d]) in *.
    destruct (tet_solid (P a) (P b) (P c') (P d) pos) as [CS _]; try (apply L; simpl; tauto); [exact V|].
    destruct pos; exact CS.
  - intros c c' vs vs' p q Hc Hc' Ne Hp Hq SS i x y Hs. unfold tets_out in Hp, Hq. rewrite (nth_error_nth _ _ _ Hc) in Hp.
    rewrite (nth_error_nth _ _ _ Hc') in Hq. pose proof (nth_error_In _ _ Hc) as H. pose proof (nth_error_In _ _ Hc') as H'.
    destruct (tet_outer vs p H Hp) as (u & v & w & o & -> & Pp & Vp). destruct (tet_outer vs' q H' Hq) as (u' & v' & w' & o' & -> & Pq & Vq).
    assert (PP : Permutation [u; v; w] [u'; v'; w']).
    { apply same_sides_perm; [exact (nodup3 _ _ _ _ _ (tet_nodup' vs H) Pp)|exact (nodup3 _ _ _ _ _ (tet_nodup' vs' H') Pq)|exact SS]. }
    assert (Pq' : Permutation vs' [u; v; w; o']).
    { rewrite Pq. apply (Permutation_app_tail [o'] (l := [u'; v'; w']) (l' := [u; v; w])). now symmetry. }
    assert (Hne : N.to_nat c <> N.to_nat c') by (intros E; apply N2Nat.inj in E; auto).
    pose proof (tg_sides g F T _ _ vs vs' u v w o o' Hc Hc' Hne Pp Pq') as B. cbv zeta in B.
    change (v6 P u v w o * v6 P u v w o' < 0)%R in B. assert (Q : (0 < v6 P u v w o')%R) by nra.
    apply (side3_rev u v w [u'; v'; w'] i x y); [|exact Hs].
    destruct (perm3 u v w _ PP) as [E|[E|[E|E]]]; [| | |exact E]; exfalso; injection E as -> -> ->; unfold v6, vol6, det3 in *; lra.
Qed.
Lemma tet_grid_volume c vs : nth_error (vf_cells F) (N.to_nat c) = Some vs ->
  poly_volume (vtk_solid g F (tets_out c) vs) = tet_volume g F vs.
Proof.
  intros Hc. pose proof (nth_error_In _ _ Hc) as H. destruct (tet_of vs H) as (a & b & c' & d & E & _ & L & V).
  unfold vtk_solid, tets_out. rewrite (nth_error_nth _ _ _ Hc). subst vs. set (pos := cell_positive [a; b; c'; d]) in *.
  destruct (tet_solid (P a) (P b) (P c') (P d) pos) as [_ Q]; try (apply L; simpl; tauto); [exact V|].
  unfold tet_volume. cbn [map]. etransitivity; [|exact Q]. destruct pos; reflexivity.
Qed.
End Grid.

(** C78. A VTK file of tetrahedra, none of them flat, neighbours on different sides of their common face (the vertices of a cell in any
    order): it loads, and initializing the centres and computing the measures gives |det(b-a, c-a, d-a)|/6 for every cell, in file order. *)
Theorem C78_tets : forall C (g : C * C * C -> point) reserve (F : vtk_file C) l1 l2 rest (m0 : Mesh (C * C * C)) old tess tess' fc cc bcc,
  (forall p, length (g p) = 3) -> tet_grid g F -> (reserve = 0 \/ 3 <= reserve) ->
  one_line l1 -> one_line l2 -> m_dim m0 = 3 -> length (m_mid m0) = 1 ->
  exists m types u ls Fs, loadVTK3 reserve (vtk_header l1 l2 ++ vtk_body F ++ rest) m0 old = Ok (m, types) /\
    initializeCenters (K := numR) tess (mkU (with_points g m) fc cc bcc) = Ok u /\
    elementMeasures (K := numR) tess' u = Ok [ls; Fs; map (tet_volume g F) (vf_cells F)] /\
    forall c vs, nth_error (vf_cells F) c = Some vs -> (0 < tet_volume g F vs)%R /\
      exists x, nth_error (u_cc u) c = Some x /\ rel_inside (map (point_of g (vf_pts F)) vs) x.
Proof.
  intros C g reserve F l1 l2 rest m0 old tess tess' fc cc bcc L3 T HR H1 H2 HD HM.
  destruct (C78_vtk3_volumes C g reserve F (tets_out g F) l1 l2 rest m0 old tess tess' fc cc bcc L3 (tet_grid_convex g F L3 T))
    as (m & types & u & ls & Fs & Vs & E & E1 & E2 & LV & H); auto.
  { destruct HR as [HR|HR]; [auto|right]. intros vs p Hv Hp. destruct (tet_face g F L3 T vs p Hv Hp) as (x & y & z & o & -> & _). exact HR. }
  assert (EV : Vs = map (tet_volume g F) (vf_cells F)).
  { apply nth_error_ext. intros i. rewrite nth_error_map. destruct (nth_error (vf_cells F) i) as [vs|] eqn:Ei; cbn.
    - rewrite <- (Nat2N.id i) in Ei. destruct (H (N.of_nat i) vs Ei) as (A & _). rewrite Nat2N.id in A. etransitivity; [exact A|]. f_equal. now apply tet_grid_volume.
    - apply nth_error_None. apply nth_error_None in Ei. etransitivity; [|exact Ei]. apply Nat.eq_le_incl, LV. }
  subst Vs. exists m, types, u, ls, Fs. splits; auto. intros c vs Hc. rewrite <- (Nat2N.id c) in Hc.
  destruct (H (N.of_nat c) vs Hc) as (_ & B & x & Hx & I). rewrite Nat2N.id in Hx.
  rewrite <- (tet_grid_volume g F L3 T (N.of_nat c) vs Hc). split; [exact B|]. exists x. split; [exact Hx|].
  destruct I as [L I]. split; [exact L|]. intros al be ga de Hh.
  assert (EI : forall v, In v (concat (vtk_solid g F (tets_out g F (N.of_nat c)) vs)) <-> In v (map (point_of g (vf_pts F)) vs)).
  { unfold tets_out. rewrite (nth_error_nth _ _ _ Hc). destruct (tet_of g F L3 T vs (nth_error_In _ _ Hc)) as (a & b & c' & d & Evs & _).
    set (pos := cell_positive g F vs). rewrite Evs. intros v. destruct pos; cbn; tauto. }
  destruct (I al be ga de) as [I1 I2]. { intros v Hv. apply Hh, EI, Hv. }
  split; [exact I1|]. intros (v & Hv & Hp). apply I2. exists v. split; [apply EI, Hv|exact Hp].
Qed.
Print Assumptions C78_tets.

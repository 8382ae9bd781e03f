(** C111: however the polygons of a planar VTK file are oriented, rewriting it settles. *)
From Coq Require Import String Ascii QArith.
From Verif Require Import P_Base M_Conn S_Conn P_Conn M_Mesh S_Mesh M_Text M_Apply P_Apply M_FPMA S_FPMA P_Poly P_FPMA P_FPMAWrite T_FPMA
  M_VTK S_VTK P_Bnd P_VTK T_VTK M_VTKWrite P_VTKWrite T_VTKWrite S_Rewrite T_Rewrite T_Rewrite2 Ex_Mesh Ex_VTK.
Local Open Scope nat_scope.
Local Open Scope list_scope.

(** Read the sections of a planar VTK file after a header into a new mesh and write the mesh. *)
Definition rewrite {C} (l1 l2 : list (vtok C)) (zero : C) (ts : list (vtok C)) : outcome (list (vtok C)) :=
  mt <- loadVTK2 (vtk_header l1 l2 ++ ts) (emptyMesh 2) [] ;; writeVTK2 zero (fst mt) (snd mt).
Fixpoint rewrites {C} (l1 l2 : list (vtok C)) (zero : C) (n : nat) (ts : list (vtok C)) : outcome (list (vtok C)) :=
  match n with 0 => Ok ts | S k => u <- rewrites l1 l2 zero k ts ;; rewrite l1 l2 zero u end.

(** * The same polygons make a conforming grid *)
Lemma same_has_side vs vs' a b : same_polygon vs vs' -> has_side vs' a b -> has_side vs a b.
Proof.
  intros SP (i & H). set (edges := map (fun p => [fst p; snd p]) (cyc_pairs vs)).
  assert (L : length (cyc_pairs vs) = length vs) by apply cyc_pairs_length.
  assert (S0 : sides_of edges (seqN (length vs)) vs).
  { split; [apply seqN_length|]. intros k e x y Hk Hs. assert (k < length vs) by (apply nth_error_Some; destruct Hs; congruence).
    rewrite nth_error_seqN in Hk by assumption. injection Hk as <-. left. rewrite Nat2N.id. unfold edges. rewrite nth_error_map.
    apply cyc_pairs_nth in Hs. rewrite Hs. reflexivity. }
  destruct (same_polygon_sides _ _ _ _ SP S0) as (es' & Pm & LS & S1).
  assert (Hi : i < length es') by (rewrite LS; destruct H as [[H _]|[H _]]; apply nth_error_Some; congruence).
  destruct (nth_error es' i) as [e|] eqn:Ee; [|apply nth_error_None in Ee; lia].
  assert (J : joins edges e a b) by (destruct H as [H|H]; [exact (S1 _ _ _ _ Ee H)|apply joins_sym; exact (S1 _ _ _ _ Ee H)]).
  assert (K : forall x y, nth_error edges (N.to_nat e) = Some [x; y] -> side vs (N.to_nat e) x y).
  { intros x y Hx. unfold edges in Hx. rewrite nth_error_map in Hx. destruct (nth_error (cyc_pairs vs) (N.to_nat e)) as [[u v]|] eqn:Ec; [|discriminate].
    cbn in Hx. injection Hx as -> ->. apply cyc_pairs_nth. exact Ec. }
  exists (N.to_nat e). destruct J as [J|J]; [left|right]; apply K; exact J.
Qed.
Lemma same_concat (cells rows : list (list N)) : Forall2 same_polygon cells rows -> length (List.concat rows) = length (List.concat cells).
Proof. induction 1 as [|vs vs' l l' H _ IH]; [reflexivity|]. cbn [List.concat]. rewrite !app_length, IH. f_equal. symmetry. apply Permutation_length, same_polygon_perm, H. Qed.
Lemma same_grid {C} (F : vtk_file C) (pts : list (C * C * C)) rows : grid2_ok F -> Forall2 same_polygon (vf_cells F) rows -> grid2_ok (mkVtk pts rows (vf_types F)).
Proof.
  intros G H. pose proof (Forall2_length' _ _ _ H) as L. pose proof (same_concat _ _ H) as LC. apply Forall2_nth in H as [_ H].
  assert (Back : forall i vs', nth_error rows i = Some vs' -> exists vs, nth_error (vf_cells F) i = Some vs /\ same_polygon vs vs').
  { intros i vs' Hi. destruct (nth_error (vf_cells F) i) as [vs|] eqn:E; [eauto|]. apply nth_error_None in E. assert (i < length rows) by (apply nth_error_Some; congruence). lia. }
  split; cbn [vf_cells vf_types vf_pts].
  - intros vs' Hv. apply In_nth_error in Hv as [i Hi]. destruct (Back _ _ Hi) as (vs & Hc & SP). apply (polygon_perm vs); [apply same_polygon_perm; exact SP|].
    apply (g2_poly _ G). eapply nth_error_In; exact Hc.
  - intros a b l ND Hl. apply (g2_two _ G a b l ND). intros c Hc. destruct (Hl c Hc) as (vs' & Hv & Hs). destruct (Back _ _ Hv) as (vs & Hcv & SP).
    exists vs. split; [exact Hcv|]. eapply same_has_side; eassumption.
  - rewrite <- L. apply (g2_cells _ G).
  - rewrite LC. apply (g2_size _ G).
  - rewrite <- L. apply (g2_types _ G).
Qed.

(** * One rewriting *)
Lemma round {C} (F : vtk_file C) l1 l2 zero :
  grid2_ok F -> one_line l1 -> one_line l2 -> (forall p, In p (vf_pts F) -> snd p = zero) ->
  (forall n, In n (vf_types F) -> In n [3; 5; 7; 9]%N) -> length (vf_types F) = length (vf_cells F) ->
  exists rows, rewrite l1 l2 zero (vtk_body F) = Ok (vtk_body (mkVtk (vf_pts F) rows (vf_types F))) /\
    Forall2 same_polygon (vf_cells F) rows /\
    (forall c v0 v1 r vs', nth_error (vf_cells F) c = Some (v0 :: v1 :: r) -> nth_error rows c = Some vs' ->
       (firstn 2 vs' = [v0; v1] \/ firstn 2 vs' = [v1; v0]) /\
       ((forall c' u j, c' < c -> nth_error (vf_cells F) c' = Some u -> ~ side u j v0 v1) -> vs' = v0 :: v1 :: r) /\
       (forall c' u j x y, c' < c -> nth_error (vf_cells F) c' = Some u -> side u j x y -> [x; y] = [v0; v1] \/ [x; y] = [v1; v0] -> firstn 2 vs' = [y; x])).
Proof.
  intros G H1 H2 Hz Hc LT.
  destruct (C24_vtk2_read F l1 l2 [] (emptyMesh 2) [] G H1 H2 eq_refl eq_refl) as (m & types & ess & E & _ & _ & V & LC & S & R & Un & _ & Lst & Dir).
  apply Forall2_nth in S as [LS S].
  assert (Row : forall c vs, nth_error (vf_cells F) (N.to_nat c) = Some vs -> exists v0 v1 r vs' e0 es f a b, vs = v0 :: v1 :: r /\ polygon vs /\
    indexCell m c = Ok vs' /\ same_polygon vs vs' /\ nth_error ess (N.to_nat c) = Some es /\ In e0 es /\ nth_error (m_faces m) (N.to_nat e0) = Some f /\
    joins (edges2 m) e0 v0 v1 /\ f_subs f = [a; b] /\ ([a; b] = [v0; v1] \/ [a; b] = [v1; v0]) /\
    firstn 2 vs' = if (cellLeft (bc (f_conn f)) =? c)%N then [a; b] else [b; a]).
  { intros c vs Hcv. assert (Hl : N.to_nat c < length ess) by (rewrite LS; apply nth_error_Some; congruence).
    destruct (nth_error ess (N.to_nat c)) as [es|] eqn:Es; [|apply nth_error_None in Es; lia].
    pose proof (S _ _ _ Es Hcv) as Sd. pose proof (R c es Es) as Rg. pose proof (g2_poly _ G vs (nth_error_In _ _ Hcv)) as P.
    assert (B : bounds (edges2 m) es vs).
    { split; [exact P|]. exists es. split; [apply Permutation_refl|]. split; [|exact Sd]. destruct Rg as (? & ? & _ & _ & _ & ND). exact ND. }
    destruct (indexCell_spec m c es vs Rg B) as (vs' & e0 & f & a & b & Ei & SP & He0 & Hf & Hs & Hd).
    destruct vs as [|v0 [|v1 r]]; [destruct P; simpl in *; lia|destruct P; simpl in *; lia|].
    pose proof (first_side _ _ _ P) as S0. destruct Sd as [_ Sd]. specialize (Sd 0 e0 v0 v1 He0 S0).
    exists v0, v1, r, vs', e0, es, f, a, b. do 5 (split; [assumption || reflexivity|]). split; [eapply nth_error_In; exact He0|]. do 3 (split; [assumption|]). split; [|exact Hd].
    unfold joins, edges2 in Sd. rewrite nth_error_map, Hf in Sd. cbn [option_map] in Sd. rewrite Hs in Sd. destruct Sd as [Q|Q]; injection Q as -> ->; auto. }
  assert (Lft : forall e f c es, nth_error (m_faces m) (N.to_nat e) = Some f -> nth_error ess (N.to_nat c) = Some es -> In e es ->
    nth_error (listing ess e) 0 = Some (cellLeft (bc (f_conn f))) /\ (cellLeft (bc (f_conn f)) <= c)%N).
  { intros e f c es Hf Hes Hin. destruct (Lst _ _ Hf) as (A & _ & _). rewrite N2Nat.id in A.
    assert (Inc : In c (listing ess e)) by (apply in_listing; eauto).
    destruct (listing ess e) as [|x l] eqn:El; [destruct Inc|]. cbn [nth] in A. rewrite A. split; [reflexivity|].
    apply (listing_first ess e x c); rewrite El; [reflexivity|exact Inc]. }
  assert (T : exists rows, mapM (indexCell m) (seqN (length (m_cells m))) = Ok rows).
  { apply mapM_ex. intros c Hcc. apply in_seqN in Hcc. destruct (nth_error (vf_cells F) (N.to_nat c)) as [vs|] eqn:Ec; [|apply nth_error_None in Ec; lia].
    destruct (Row c vs Ec) as (? & ? & ? & vs' & ? & ? & ? & ? & ? & _ & _ & Ei & _). eauto. }
  destruct T as [rows ER]. pose proof ER as EM. apply mapM_ok in EM. apply Forall2_nth in EM as [LR EM]. rewrite seqN_length in LR.
  assert (At : forall c vs, nth_error rows (N.to_nat c) = Some vs -> indexCell m c = Ok vs).
  { intros c vs Hcv. assert (Hl : N.to_nat c < length rows) by (apply nth_error_Some; congruence).
    specialize (EM (N.to_nat c) (N.of_nat (N.to_nat c)) vs). rewrite nth_error_seqN in EM by lia. specialize (EM eq_refl Hcv). rewrite N2Nat.id in EM. exact EM. }
  exists rows. split; [|split].
  - destruct (load2_spec F l1 l2 [] (emptyMesh 2) [] G H1 H2 eq_refl eq_refl) as (m2 & types2 & ess2 & E2 & _ & _ & _ & _ & _ & _ & L & Ty).
    rewrite E in E2. injection E2 as <- <-. rewrite app_nil_r in E. unfold rewrite. rewrite E. cbn [bind fst snd].
    assert (HT : Forall2 (fun t n => vtkCode2 t = Some n) types (vf_types F)).
    { apply Forall2_nth. split; [congruence|]. intros i t n Ht Hn. rewrite Ty, Hn in Ht.
      destruct (Hc n (nth_error_In _ _ Hn)) as [<-|[<-|[<-|[<-|[]]]]]; cbn in Ht; injection Ht as <-; reflexivity. }
    unfold writeVTK2, indexMesh2. rewrite ER. cbn [bind].
    rewrite (emit2_spec m zero types (vf_types F) HT (eq_trans (Forall2_length' _ _ _ HT) (eq_trans LT (eq_sym LC))) rows (eq_sym LR)).
    unfold written2. rewrite V, map_map. do 3 f_equal. rewrite <- (map_id (vf_pts F)) at 2. apply map_ext_in.
    intros p Hp. rewrite <- (Hz p Hp). destruct p as [[x y] z]. reflexivity.
  - apply Forall2_nth. split; [congruence|]. intros i vs vs' Hcv Hr. rewrite <- (Nat2N.id i) in Hcv, Hr.
    destruct (Row _ _ Hcv) as (? & ? & ? & vs2 & ? & ? & ? & ? & ? & _ & _ & Ei & SP & _). rewrite (At _ _ Hr) in Ei. injection Ei as <-. exact SP.
  - intros i v0 v1 r vs' Hcv Hr. pose proof Hcv as Hc0. rewrite <- (Nat2N.id i) in Hcv, Hr.
    destruct (Row _ _ Hcv) as (w0 & w1 & r1 & vs2 & e0 & es & f & x & y & Ev & P & Ei & SP & Hes & Hin & Hf & J & Hs & D & Fn). injection Ev as <- <- <-.
    rewrite (At _ _ Hr) in Ei. injection Ei as <-.
    destruct (Lft _ _ _ _ Hf Hes Hin) as [L0 Le]. destruct (Dir _ _ Hf) as (w & k & x' & y' & Hw & Sw & Hs'). rewrite Hs in Hs'. injection Hs' as <- <-.
    split; [|split].
    + rewrite Fn. destruct (cellLeft (bc (f_conn f)) =? N.of_nat i)%N; destruct D as [D|D]; injection D as -> ->; auto.
    + intros Fr. assert (FN : firstn 2 vs' = [v0; v1]).
      { rewrite Fn. destruct (N.eqb_spec (cellLeft (bc (f_conn f))) (N.of_nat i)) as [Q|Q]; destruct D as [D|D]; injection D as -> ->; try reflexivity; exfalso.
        - rewrite Q, Hcv in Hw. injection Hw as <-. exact (not_both _ _ _ _ _ P (first_side _ _ _ P) Sw).
        - refine (Fr _ w k _ Hw Sw). lia. }
      destruct vs' as [|a [|b r']]; [discriminate FN|discriminate FN|]. injection FN as -> ->. rewrite (same_head v0 v1 r r' P SP). reflexivity.
    + intros c' u j a b Hcc Hu Su Jab. rewrite <- (Nat2N.id c') in Hu.
      destruct (Row _ _ Hu) as (? & ? & ? & ? & ? & es' & ? & ? & ? & _ & P' & _ & _ & Hes' & _).
      assert (Jab' : joins (edges2 m) e0 a b) by (destruct Jab as [Q|Q]; injection Q as -> ->; [exact J|apply joins_sym; exact J]).
      assert (K : In e0 es').
      { assert (Hk : j < length es') by (rewrite (proj1 (S _ _ _ Hes' Hu)); apply nth_error_Some; destruct Su; congruence).
        destruct (nth_error es' j) as [e'|] eqn:Ee; [|apply nth_error_None in Ee; lia].
        rewrite (Un e0 e' a b Jab' (proj2 (S _ _ _ Hes' Hu) _ _ _ _ Ee Su)). eapply nth_error_In; exact Ee. }
      destruct (Lft _ _ _ _ Hf Hes' K) as [_ Le'].
      assert (QL : cellLeft (bc (f_conn f)) = N.of_nat c').
      { destruct (Lst _ _ Hf) as (_ & _ & Two). rewrite N2Nat.id in Two.
        assert (I1 : In (N.of_nat i) (listing ess e0)) by (apply in_listing; eauto). assert (I2 : In (N.of_nat c') (listing ess e0)) by (apply in_listing; eauto).
        destruct (listing ess e0) as [|l0 [|l3 [|l4 l]]]; [discriminate| | |simpl in Two; lia]; injection L0 as L0; rewrite L0 in *; cbn in I1, I2;
          [lia|destruct I1 as [I1|[I1|[]]]; destruct I2 as [I2|[I2|[]]]; lia]. }
      rewrite QL in Hw, Fn. assert (w = u) by congruence. subst w.
      destruct (N.eqb_spec (N.of_nat c') (N.of_nat i)) as [Q|Q]; [lia|]. rewrite Fn.
      destruct D as [D|D]; injection D as -> ->; destruct Jab as [Jab|Jab]; injection Jab as -> ->; try reflexivity; exfalso.
      * exact (not_both u j k _ _ P' Su Sw).
      * exact (not_both u j k _ _ P' Su Sw).
Qed.

(** * Settling: the row of polygon [c] no longer changes after [c] rewritings *)
Section Settle.
Context {C : Type} (F : vtk_file C) (l1 l2 : list (vtok C)) (zero : C).
Hypothesis G : grid2_ok F.
Hypothesis H1 : one_line l1.
Hypothesis H2 : one_line l2.
Hypothesis Hz : forall p, In p (vf_pts F) -> snd p = zero.
Hypothesis Hc : forall n, In n (vf_types F) -> In n [3; 5; 7; 9]%N.
Hypothesis LT : length (vf_types F) = length (vf_cells F).
Definition file cells := mkVtk (vf_pts F) cells (vf_types F).

Lemma two_rounds n : exists p q, rewrites l1 l2 zero n (vtk_body F) = Ok (vtk_body (file p)) /\ rewrite l1 l2 zero (vtk_body (file p)) = Ok (vtk_body (file q)) /\
  grid2_ok (file p) /\ length p = length (vf_cells F) /\ length q = length p /\
  forall c, c <= n -> nth_error q c = nth_error p c.
Proof.
  induction n as [|n (p & q & Ep & Eq & Gp & Lp & Lq & Fix)].
  - destruct (round F l1 l2 zero G H1 H2 Hz Hc LT) as (q & Eq & Sm & Q). exists (vf_cells F), q.
    assert (EF : file (vf_cells F) = F) by (unfold file; destruct F; reflexivity). rewrite EF.
    do 3 (split; [reflexivity || assumption|]). split; [reflexivity|]. split; [symmetry; exact (Forall2_length' _ _ _ Sm)|].
    intros c Hcn. assert (c = 0) by lia. subst c. pose proof (Forall2_length' _ _ _ Sm) as L.
    destruct (nth_error (vf_cells F) 0) as [vs|] eqn:Ec; [|apply nth_error_None in Ec; apply nth_error_None; lia].
    destruct (nth_error q 0) as [vs'|] eqn:Er; [|apply nth_error_None in Er; assert (0 < length (vf_cells F)) by (apply nth_error_Some; congruence); lia].
    pose proof (g2_poly _ G vs (nth_error_In _ _ Ec)) as P. destruct vs as [|v0 [|v1 r]]; [destruct P; simpl in *; lia|destruct P; simpl in *; lia|].
    destruct (Q 0 v0 v1 r vs' Ec Er) as (_ & K & _). f_equal. apply K. intros; lia.
  - destruct (round (file p) l1 l2 zero Gp H1 H2 Hz Hc (eq_trans LT (eq_sym Lp))) as (q1 & Eq1 & Sm1 & Q1). cbn [file vf_pts vf_cells vf_types] in *.
    assert (q1 = q). { apply (body_inj (vf_pts F) q1 q (vf_types F)); [rewrite <- (Forall2_length' _ _ _ Sm1); congruence|]. unfold file in *. congruence. } subst q1.
    assert (Gq : grid2_ok (file q)) by (exact (same_grid (file p) (vf_pts F) q Gp Sm1)).
    destruct (round (file q) l1 l2 zero Gq H1 H2 Hz Hc (eq_trans LT (eq_trans (eq_sym Lp) (eq_sym Lq)))) as (s & Es & Sm2 & Q2). cbn [file vf_pts vf_cells vf_types] in *.
    exists q, s. split; [cbn [rewrites]; rewrite Ep; exact Eq|]. split; [exact Es|]. split; [exact Gq|]. split; [congruence|].
    split; [symmetry; exact (Forall2_length' _ _ _ Sm2)|]. intros c Hcn. pose proof (Forall2_length' _ _ _ Sm2) as L2.
    destruct (nth_error q c) as [vs|] eqn:Ec; [|apply nth_error_None in Ec; apply nth_error_None; lia].
    destruct (nth_error s c) as [vs'|] eqn:Er; [|apply nth_error_None in Er; assert (c < length q) by (apply nth_error_Some; congruence); lia].
    destruct (nth_error p c) as [ws|] eqn:Ew; [|apply nth_error_None in Ew; assert (c < length q) by (apply nth_error_Some; congruence); lia].
    pose proof (g2_poly _ Gq vs (nth_error_In _ _ Ec)) as P. destruct vs as [|v0 [|v1 r]]; [destruct P; simpl in *; lia|destruct P; simpl in *; lia|].
    pose proof (g2_poly _ Gp ws (nth_error_In _ _ Ew)) as Pw. destruct ws as [|w0 [|w1 r0]]; [destruct Pw; simpl in *; lia|destruct Pw; simpl in *; lia|].
    destruct (Q2 c v0 v1 r vs' Ec Er) as (_ & K & _). f_equal. apply K. intros c' u j Hcc Hu Su.
    assert (Hu' : nth_error p c' = Some u) by (rewrite <- Hu; symmetry; apply Fix; lia).
    destruct (Q1 c w0 w1 r0 _ Ew Ec) as (A & _ & B). cbn [firstn] in A. specialize (B c' u j v0 v1 Hcc Hu' Su). cbn [firstn] in B.
    assert (Q : [v0; v1] = [v1; v0]) by (apply B; destruct A as [A|A]; rewrite A; auto). injection Q as Q _. exact (side_ne _ _ _ _ P (first_side _ _ _ P) Q).
Qed.
End Settle.

Theorem C111_vtk2_settles : forall C (F : vtk_file C) l1 l2 zero,
  grid2_ok F -> one_line l1 -> one_line l2 -> (forall p, In p (vf_pts F) -> snd p = zero) ->
  (forall n, In n (vf_types F) -> In n [3; 5; 7; 9]%N) -> length (vf_types F) = length (vf_cells F) ->
  forall n, length (vf_cells F) <= S n -> exists ts, rewrites l1 l2 zero n (vtk_body F) = Ok ts /\ rewrite l1 l2 zero ts = Ok ts.
Proof.
  intros C F l1 l2 zero G H1 H2 Hz Hc LT n Hn. destruct (two_rounds F l1 l2 zero G H1 H2 Hz Hc LT n) as (p & q & Ep & Eq & Gp & Lp & Lq & Fix).
  exists (vtk_body (file F p)). split; [exact Ep|]. rewrite Eq. f_equal. assert (q = p); [|congruence]. apply nth_error_ext. intros i.
  destruct (Nat.le_gt_cases i n) as [L|L]; [apply Fix; exact L|]. transitivity (@None (list N)); [|symmetry]; apply nth_error_None; lia.
Qed.
Print Assumptions C111_vtk2_settles.

(** Three triangles that need both rewritings: the first reverses the second row, and only the second reverses the third. *)
Definition threeTri (b c : list N) : vtk_file N := mkVtk [(0,0,0); (1,0,0); (1,1,0); (2,3,0); (5,2,0)]%N [[0;1;2]%N; b; c] [5;5;5]%N.
Example C111_settles_instance : grid2_ok (threeTri [0;1;3]%N [3;1;4]%N) /\
  rewrites [Vw "#"%string; Vw "vtk"%string] [Vw "grid"%string] 0%N 1 (vtk_body (threeTri [0;1;3]%N [3;1;4]%N)) = Ok (vtk_body (threeTri [1;0;3]%N [3;1;4]%N)) /\
  rewrites [Vw "#"%string; Vw "vtk"%string] [Vw "grid"%string] 0%N 2 (vtk_body (threeTri [0;1;3]%N [3;1;4]%N)) = Ok (vtk_body (threeTri [1;0;3]%N [1;3;4]%N)) /\
  rewrite [Vw "#"%string; Vw "vtk"%string] [Vw "grid"%string] 0%N (vtk_body (threeTri [1;0;3]%N [1;3;4]%N)) = Ok (vtk_body (threeTri [1;0;3]%N [1;3;4]%N)).
Proof.
  assert (G : grid2_ok (threeTri [0;1;3]%N [3;1;4]%N)).
  { split.
    - intros vs [<-|[<-|[<-|[]]]]; (split; [nodup_N|simpl; lia]).
    - apply check_two2_ok. vm_compute. reflexivity.
    - vm_compute. discriminate.
    - vm_compute. discriminate.
    - vm_compute. lia. }
  assert (E2 : rewrites [Vw "#"%string; Vw "vtk"%string] [Vw "grid"%string] 0%N 2 (vtk_body (threeTri [0;1;3]%N [3;1;4]%N)) = Ok (vtk_body (threeTri [1;0;3]%N [1;3;4]%N))) by (vm_compute; reflexivity).
  split; [exact G|]. split; [vm_compute; reflexivity|]. split; [exact E2|].
  destruct (C111_vtk2_settles N (threeTri [0;1;3]%N [3;1;4]%N) [Vw "#"%string; Vw "vtk"%string] [Vw "grid"%string] 0%N G) with (n := 2) as (ts & E & Er).
  - unfold one_line; cbn; intuition discriminate.
  - unfold one_line; cbn; intuition discriminate.
  - intros p Hp. cbn in Hp. repeat destruct Hp as [<-|Hp]; try reflexivity. destruct Hp.
  - intros n Hn. cbn in Hn |- *. intuition.
  - reflexivity.
  - cbn. lia.
  - rewrite E2 in E. injection E as <-. exact Er.
Qed.

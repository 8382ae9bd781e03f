(** Concrete grids satisfying the hypotheses of C24, C26, C27 and C28. *)
From Coq Require Import String.
From Verif Require Import P_Base M_Conn S_Conn P_Conn M_Mesh S_Mesh M_Text M_FPMA S_FPMA P_Poly P_FPMA P_FPMAWrite
  M_VTK S_VTK P_Bnd P_VTK T_VTK P_VTK3 T_VTK3 P_Apply.
Local Open Scope list_scope.

(** ** Checkers for the at-most-two conditions. *)
Definition cells_where (P : list N -> bool) (cells : list (list N)) : list N :=
  map fst (filter (fun ic => P (snd ic)) (combine (seqN (length cells)) cells)).
Lemma nth_error_combine' {A B} : forall (l : list A) (k : list B) i a b,
  nth_error l i = Some a -> nth_error k i = Some b -> nth_error (combine l k) i = Some (a, b).
Proof.
  induction l as [|x l IH]; intros [|y k] [|i] a b H H'; try discriminate.
  - injection H as ->. injection H' as ->. reflexivity.
  - simpl in *. apply IH; assumption.
Qed.
Lemma cells_where_in P cells c vs :
  nth_error cells (N.to_nat c) = Some vs -> P vs = true -> In c (cells_where P cells).
Proof.
  intros H HP. unfold cells_where. apply in_map_iff. exists (c, vs). split; [reflexivity|].
  apply filter_In. split; [|assumption]. eapply nth_error_In. apply nth_error_combine'; [|exact H].
  rewrite nth_error_seqN. 2:{ apply nth_error_Some. congruence. } f_equal. lia.
Qed.

Definition sideb (a b : N) (vs : list N) : bool :=
  existsb (fun p => ((fst p =? a) && (snd p =? b)) || ((fst p =? b) && (snd p =? a)))%N (cyc_pairs vs).
Lemma sideb_true a b vs : has_side vs a b -> sideb a b vs = true.
Proof.
  intros (i & [H|H]); apply cyc_pairs_nth in H; unfold sideb; apply existsb_exists;
    eexists; (split; [eapply nth_error_In; eassumption|]); cbn [fst snd]; rewrite !N.eqb_refl; simpl; auto using Bool.orb_true_r.
Qed.
Lemma sideb_sym a b vs : sideb b a vs = sideb a b vs.
Proof. unfold sideb. induction (cyc_pairs vs) as [|p l IH]; [reflexivity|]. cbn [existsb]. rewrite IH. f_equal. apply Bool.orb_comm. Qed.
Definition check_two2 (cells : list (list N)) : bool :=
  forallb (fun vs => forallb (fun p => length (cells_where (sideb (fst p) (snd p)) cells) <=? 2) (cyc_pairs vs)) cells.
Lemma check_two2_ok cells : check_two2 cells = true -> forall a b l, NoDup l ->
  (forall c, In c l -> exists vs, nth_error cells (N.to_nat c) = Some vs /\ has_side vs a b) -> length l <= 2.
Proof.
  intros H a b l ND HL. destruct l as [|c0 l']; [simpl; lia|].
  destruct (HL c0 (or_introl eq_refl)) as (vs & Hvs & Hs).
  unfold check_two2 in H. rewrite forallb_forall in H. specialize (H vs (nth_error_In _ _ Hvs)).
  rewrite forallb_forall in H.
  assert (K : length (cells_where (sideb a b) cells) <= 2).
  { destruct Hs as (i & [Hs|Hs]); apply cyc_pairs_nth in Hs; apply nth_error_In, H in Hs; apply Nat.leb_le in Hs; cbn [fst snd] in Hs.
    - exact Hs.
    - unfold cells_where in *. erewrite filter_ext in Hs; [exact Hs|]. intros [x y]. apply sideb_sym. }
  etransitivity; [|exact K]. apply NoDup_incl_length; [assumption|].
  intros c Hc. destruct (HL c Hc) as (ws & Hws & Hw). eapply cells_where_in; [exact Hws|]. apply sideb_true; assumption.
Qed.

Definition subsetb (p q : list N) : bool := forallb (fun x => existsb (N.eqb x) q) p.
Definition faceb (p : list N) (vs : list N) : bool := existsb (fun q => subsetb p q && subsetb q p) (faces_of vs).
Definition check_two3 (cells : list (list N)) : bool :=
  forallb (fun vs => forallb (fun p => length (cells_where (faceb p) cells) <=? 2) (faces_of vs)) cells.
Lemma same_sides_subset p q : same_sides p q -> subsetb p q = true.
Proof.
  intros H. unfold subsetb. apply forallb_forall. intros x Hx. apply existsb_Neqb.
  apply In_nth_error in Hx as [i Hi].
  assert (Hl : i < length p) by (apply nth_error_Some; congruence).
  destruct (side_total p i Hl) as (a & b & Hs). assert (a = x) by (destruct Hs; congruence). subst a.
  destruct (proj1 (H x b) (ex_intro _ i (or_introl Hs))) as (j & [[A B]|[A B]]); eapply nth_error_In; eassumption.
Qed.
Lemma check_two3_ok cells : check_two3 cells = true -> forall p l, NoDup l ->
  (forall c, In c l -> exists vs q, nth_error cells (N.to_nat c) = Some vs /\ In q (faces_of vs) /\ same_sides p q) -> length l <= 2.
Proof.
  intros H p l ND HL. destruct l as [|c0 l']; [simpl; lia|].
  destruct (HL c0 (or_introl eq_refl)) as (vs & q & Hvs & Hq & Hs).
  unfold check_two3 in H. rewrite forallb_forall in H. specialize (H vs (nth_error_In _ _ Hvs)).
  rewrite forallb_forall in H. specialize (H q Hq). apply Nat.leb_le in H.
  etransitivity; [|exact H]. apply NoDup_incl_length; [assumption|].
  intros c Hc. destruct (HL c Hc) as (ws & q' & Hws & Hq' & Hw). eapply cells_where_in; [exact Hws|].
  unfold faceb. apply existsb_exists. exists q'. split; [assumption|].
  assert (S1 : same_sides q q') by (intros a b; rewrite <- (Hs a b); apply Hw).
  assert (S2 : same_sides q' q) by (intros a b; symmetry; apply S1).
  rewrite (same_sides_subset _ _ S1), (same_sides_subset _ _ S2). reflexivity.
Qed.

Ltac nodup_N := repeat (constructor; [cbv; intuition congruence|]); constructor.

(** ** Three polygons around the common vertex 0: a triangle, a quadrilateral and a pentagon. *)
Local Open Scope N_scope.
Definition grid2 : vtk_file N := mkVtk
  [(0,0,0); (1,0,0); (2,0,0); (3,0,0); (4,0,0); (5,0,0); (6,0,0)]
  [[0;1;2]; [0;2;3;4]; [0;4;5;6;1]] [5; 9; 7].
Lemma grid2_fine : grid2_ok grid2.
Proof.
  split.
  - intros vs [<-|[<-|[<-|[]]]]; (split; [nodup_N|simpl; lia]).
  - apply check_two2_ok. vm_compute. reflexivity.
  - vm_compute. discriminate.
  - vm_compute. discriminate.
  - vm_compute. lia.
Qed.
Definition header2 := @vtk_header N [Vw "#"; Vw "vtk"] [Vw "grid"].
Example C24_instance : grid2_ok grid2 /\
  exists m types, loadVTK2 (header2 ++ vtk_body grid2) (emptyMesh 2) [] = Ok (m, types) /\
    edges2 m = [[0;1];[1;2];[2;0];[2;3];[3;4];[4;0];[4;5];[5;6];[6;1]] /\
    ring m 2 [5;6;7;8;0] /\ types = [TRIANGLE; QUAD; POLYGON].
Proof.
  split; [exact grid2_fine|].
  destruct (loadVTK2 (header2 ++ vtk_body grid2) (emptyMesh 2) []) as [[m types]| | |] eqn:E; [|vm_compute in E; discriminate..].
  exists m, types. vm_compute in E. injection E as <- <-. split; [reflexivity|]. split; [reflexivity|].
  split; [|reflexivity]. apply ring_iff. vm_compute. reflexivity.
Qed.

(** A code without a meaning (line 144 constructs but does not throw): the cell keeps the type the reader
    object stored for an earlier file, here QUAD. *)
Example C26_unsupported_code_silently_accepted :
  exists m, loadVTK2 (header2 ++ vtk_body (mkVtk (vf_pts grid2) (vf_cells grid2) [5; 42; 7])) (emptyMesh 2) [QUAD; QUAD]
            = Ok (m, [TRIANGLE; QUAD; POLYGON]).
Proof. eexists. vm_compute. reflexivity. Qed.

(** ** A hexahedron, a pyramid on its top, a wedge at its side and a tetrahedron at the pyramid. *)
Definition grid3 : vtk_file N := mkVtk
  (map (fun k => (k, k, k)) [0;1;2;3;4;5;6;7;8;9;10;11])
  [[0;1;2;3;4;5;6;7]; [4;5;6;7;8]; [1;5;9;2;6;10]; [4;5;8;11]] [12; 14; 13; 10].
Lemma grid3_fine : grid3_ok grid3.
Proof.
  split.
  - intros vs [<-|[<-|[<-|[<-|[]]]]]; (split; [nodup_N|simpl; tauto]).
  - apply check_two3_ok. vm_compute. reflexivity.
  - vm_compute. discriminate.
  - vm_compute. lia.
Qed.
Example C27_C28_instance : grid3_ok grid3 /\
  exists m types, loadVTK3 0 (header2 ++ vtk_body grid3) (emptyMesh 3) [] = Ok (m, types) /\
    length (m_faces m) = 17%nat /\ ring m 1 [5;6;7;8;9] /\ ring m 0 [0;1;2;3;4;5] /\
    types = [HEXAHEDRON; PYRAMID; WEDGE; TETRA] /\
    option_map (fun f => (cellLeft (bc (f_conn f)), cellRight (bc (f_conn f)))) (nth_error (m_faces m) 5) = Some (0, 1) /\
    option_map (fun f => (cellLeft (bc (f_conn f)), cellRight (bc (f_conn f)))) (nth_error (m_faces m) 2) = Some (0, 2).
Proof.
  split; [exact grid3_fine|].
  destruct (loadVTK3 0 (header2 ++ vtk_body grid3) (emptyMesh 3) []) as [[m types]| | |] eqn:E; [|vm_compute in E; discriminate..].
  exists m, types. vm_compute in E. injection E as <- <-. repeat split; try reflexivity.
  all: try (apply ring_iff; vm_compute; reflexivity).
Qed.

(** Proofs about the native cells of the 3D VTK writer. *)
From Coq Require Import String Permutation.
From Verif Require Import Base P_Base M_Conn M_Mesh S_Mesh M_Apply P_Apply M_FPMA S_FPMA P_Poly P_FPMA P_FPMAWrite
  M_VTK S_VTK P_Bnd P_VTK P_VTK3 M_VTKWrite P_VTKWrite P_Tess S_Tess S_Solid.
Local Open Scope list_scope.

(** * Finite facts about the shapes, on vertex positions *)
Fixpoint leqb (l k : list nat) : bool :=
  match l, k with [], [] => true | a :: l, b :: k => (a =? b) && leqb l k | _, _ => false end.
Lemma leqb_ok l k : leqb l k = true -> l = k.
Proof.
  revert k; induction l as [|a l IH]; intros [|b k]; simpl; try discriminate; auto.
  rewrite andb_true_iff. intros [H1 H2]. apply Nat.eqb_eq in H1. f_equal; auto.
Qed.
(** All readings of a polygon. *)
Definition rotations {A} (q : list A) : list (list A) := map (fun k => skipn k q ++ firstn k q) (seq 0 (S (length q))).
Definition dihedral {A} (q : list A) : list (list A) := rotations q ++ map (@rev A) (rotations q).
Definition mem (x : nat) (l : list nat) : bool := existsb (Nat.eqb x) l.
Lemma mem_iff x l : mem x l = true <-> In x l.
Proof.
  unfold mem. rewrite existsb_exists. split.
  - intros (y & Hy & E). apply Nat.eqb_eq in E. now subst.
  - intros H. exists x. split; auto. apply Nat.eqb_refl.
Qed.
Definition adj (n a b : nat) : bool := existsb (fun p => existsb (pair_eqb (a, b)) (ncyc p)) (shape_faces n).

(** The positions [pi] are a symmetry of the shape: every face goes to a face, [js] tells which. *)
Definition image (n : nat) (pi : list nat) (f : list nat) : list nat := map (fun k => nth k pi 0) f.
Definition find_face (n : nat) (p : list nat) : option nat :=
  find (fun j => existsb (leqb p) (dihedral (nth j (shape_faces n) []))) (seq 0 (length (shape_faces n))).
Fixpoint all_some {A} (l : list (option A)) : option (list A) :=
  match l with
  | [] => Some []
  | Some a :: r => option_map (cons a) (all_some r)
  | None :: _ => None
  end.
Definition symmetry (n : nat) (pi : list nat) : bool :=
  permb pi (seq 0 n) &&
  match all_some (map (fun f => find_face n (image n pi f)) (shape_faces n)) with
  | Some js => permb js (seq 0 (length (shape_faces n)))
  | None => false
  end.

Definition missing (n : nat) (b : list nat) : list nat := filter (fun x => negb (mem x b)) (seq 0 n).
Definition pyr_ok (n : nat) (okBase : nat -> bool) : bool :=
  forallb (fun q => negb (okBase (length q)) ||
    forallb (fun b => match missing n b with [x] => symmetry n (b ++ [x]) | _ => false end) (dihedral q)) (shape_faces n).
Definition tops (n : nat) (b : list nat) : option (list nat) :=
  all_some (map (fun a => match filter (fun x => adj n a x && negb (mem x b)) (seq 0 n) with [x] => Some x | _ => None end) b).
Definition lin_ok (n : nat) (okBase : nat -> bool) : bool :=
  forallb (fun q => negb (okBase (length q)) ||
    forallb (fun b => match tops n b with Some ts => symmetry n (b ++ ts) && nodupnb (b ++ ts) | None => false end) (dihedral q)) (shape_faces n).

Lemma pyr4 : pyr_ok 4 (fun _ => true) = true. Proof. vm_compute. reflexivity. Qed.
Lemma pyr5 : pyr_ok 5 (fun l => 3 <? l) = true. Proof. vm_compute. reflexivity. Qed.
Lemma lin6 : lin_ok 6 (fun l => l =? 3) = true. Proof. vm_compute. reflexivity. Qed.
Lemma lin8 : lin_ok 8 (fun _ => true) = true. Proof. vm_compute. reflexivity. Qed.

(** * From positions to vertices *)
Lemma all_some_Forall2 {A B} (f : A -> option B) l r : all_some (map f l) = Some r -> Forall2 (fun a b => f a = Some b) l r.
Proof.
  revert r; induction l as [|a l IH]; intros r H; simpl in H.
  - inv H. constructor.
  - destruct (f a) as [b|] eqn:E; [|discriminate]. destruct (all_some (map f l)) as [k|]; [|discriminate].
    simpl in H. inv H. constructor; auto.
Qed.

Lemma same_polygon_dihedral (g : nat -> N) q b : same_polygon (map g q) b -> exists b0, In b0 (dihedral q) /\ b = map g b0.
Proof.
  intros (l1 & l2 & E & H).
  assert (R : exists b0, In b0 (rotations q) /\ l2 ++ l1 = map g b0).
  { exists (skipn (length l1) q ++ firstn (length l1) q). split.
    - unfold rotations. apply in_map_iff. exists (length l1). split; auto. apply in_seq.
      assert (L : length (map g q) = length (l1 ++ l2)) by now rewrite E. rewrite map_length, app_length in L. lia.
    - rewrite map_app, <- firstn_map, <- skipn_map, E, skipn_app, firstn_app, skipn_all, firstn_all, Nat.sub_diag.
      simpl. now rewrite app_nil_r. }
  destruct R as (b0 & H0 & E0). unfold dihedral. destruct H as [->| ->].
  - exists b0. split; auto. apply in_or_app. auto.
  - exists (rev b0). split; [apply in_or_app; right; now apply in_map|]. now rewrite E0, map_rev.
Qed.
Lemma dihedral_same (g : nat -> N) q b : In b (dihedral q) -> same_polygon (map g q) (map g b).
Proof.
  intros H. unfold dihedral in H. apply in_app_or in H as [H|H].
  - unfold rotations in H. apply in_map_iff in H as (k & <- & _). exists (map g (firstn k q)), (map g (skipn k q)).
    rewrite <- !map_app, firstn_skipn. auto.
  - apply in_map_iff in H as (b0 & <- & H). unfold rotations in H. apply in_map_iff in H as (k & <- & _).
    exists (map g (firstn k q)), (map g (skipn k q)).
    rewrite <- !map_app, firstn_skipn, map_rev. auto.
Qed.
Lemma dihedral_perm {A} (q b : list A) : In b (dihedral q) -> Permutation q b.
Proof.
  intros H. unfold dihedral in H. apply in_app_or in H as [H|H].
  - unfold rotations in H. apply in_map_iff in H as (k & <- & _). rewrite <- (firstn_skipn k q) at 1. apply Permutation_app_comm.
  - apply in_map_iff in H as (b0 & <- & H). unfold rotations in H. apply in_map_iff in H as (k & <- & _).
    rewrite <- Permutation_rev. rewrite <- (firstn_skipn k q) at 1. apply Permutation_app_comm.
Qed.

Lemma shape_bound n p k : In p (shape_faces n) -> In k p -> k < n.
Proof.
  do 9 (destruct n as [|n]; [simpl; intuition (subst; simpl in *; intuition lia)|]). simpl. tauto.
Qed.
Lemma shape_total n k : In n [4; 5; 6; 8] -> k < n -> exists p, In p (shape_faces n) /\ In k p.
Proof.
  intros H Hk. assert (Q : forallb (fun n => forallb (fun k => existsb (mem k) (shape_faces n)) (seq 0 n)) [4; 5; 6; 8] = true)
    by (vm_compute; reflexivity).
  rewrite forallb_forall in Q. specialize (Q n H). rewrite forallb_forall in Q.
  specialize (Q k). rewrite in_seq in Q. specialize (Q ltac:(lia)). apply existsb_exists in Q as (p & Hp & M).
  exists p. split; auto. now apply mem_iff.
Qed.

Lemma Forall2_flip {A B} (R : A -> B -> Prop) l k : Forall2 (fun b a => R a b) l k -> Forall2 R k l.
Proof. induction 1; constructor; auto. Qed.

Lemma Forall2_In_r {A B} (R : A -> B -> Prop) l k b : Forall2 R l k -> In b k -> exists a, In a l /\ R a b.
Proof. intros F H. exact (Forall2_In_l _ _ _ _ (Forall2_flip (fun b a => R a b) _ _ F) H). Qed.

Section Sym.
Context {V : Type}.
Variable m : Mesh V.

Lemma face_polygon_same f p p' : same_polygon p p' -> face_polygon m f p -> face_polygon m f p'.
Proof. intros S (fc & H & B). exists fc. split; auto. eapply bounds_same; eassumption. Qed.

Lemma symmetric_solid c vs pi : is_solid m c vs -> symmetry (length vs) pi = true ->
  is_solid m c (map (fun k => nth k vs 0%N) pi) /\ length (map (fun k => nth k vs 0%N) pi) = length vs.
Proof.
  intros (ND & fs & ps & R & P & F) S. set (n := length vs) in *. set (g := fun k => nth k vs 0%N).
  unfold symmetry in S. apply andb_true_iff in S as [S1 S2]. apply permb_iff in S1.
  destruct (all_some _) as [js|] eqn:Ej; [|discriminate]. apply permb_iff in S2.
  apply all_some_Forall2 in Ej.
  assert (Lpi : length pi = n) by (rewrite (Permutation_length S1); apply seq_length).
  assert (Bpi : forall k, In k pi -> k < n) by (intros k Hk; rewrite S1 in Hk; apply in_seq in Hk; lia).
  assert (L' : length (map g pi) = n) by now rewrite map_length.
  split; [|exact L']. split.
  - apply NoDup_map_nth; auto. eapply Permutation_NoDup; [symmetry; exact S1|apply seq_NoDup].
  - exists fs.
    set (Q := map (fun j => nth j (faces_of vs) []) js).
    assert (FQ : Forall2 same_polygon Q (faces_of (map g pi))).
    { unfold Q, faces_of. rewrite L'. fold n. rewrite Forall2_map_l, Forall2_map_r.
      clear - Ej Lpi g. apply Forall2_flip.
      eapply Forall2_impl_in; [|exact Ej]. intros f j Hf _ E. cbv beta in E |- *.
      unfold find_face in E. apply find_some in E as [Hj E]. apply in_seq in Hj.
      apply existsb_exists in E as (b & Hb & E). apply leqb_ok in E. subst b.
      assert (E1 : map (fun k => nth k (map g pi) 0%N) f = map g (image n pi f)).
      { unfold image. rewrite map_map. apply map_ext_in. intros k Hk.
        rewrite (nth_indep _ 0%N (g 0)); [|rewrite map_length, Lpi; eapply shape_bound; eassumption]. apply map_nth. }
      rewrite E1.
      rewrite (nth_indep _ [] (map g [])); [|rewrite map_length; lia].
      change (same_polygon (nth j (map (map g) (shape_faces n)) (map g [])) (map g (image n pi f))).
      rewrite map_nth. apply dihedral_same. exact Hb. }
    assert (PQ : Permutation Q ps).
    { rewrite P. unfold Q. rewrite S2. replace (length (shape_faces n)) with (length (faces_of vs)) by (unfold faces_of; apply map_length).
      clear. induction (faces_of vs) as [|x l IH]; simpl; [constructor|]. constructor. rewrite <- seq_shift, map_map. exact IH. }
    destruct (Permutation_Forall2 PQ FQ) as (ps' & P' & F').
    exists ps'. splits; auto; [now symmetry|]. clear - F F'. revert ps' F'.
    induction F as [|f p fs ps H F IH]; intros ps' F'; inv F'; constructor; auto. eapply face_polygon_same; eassumption.
Qed.
End Sym.

(** * What the writer meets on the boundary of a solid *)
Lemma push_new_in x out : In x out -> push_new out x = out.
Proof.
  intros H. unfold push_new. assert (E : existsb (N.eqb x) out = true).
  { apply existsb_exists. exists x. split; auto. apply N.eqb_refl. }
  now rewrite E.
Qed.
Lemma push_new_out x out : ~ In x out -> push_new out x = out ++ [x].
Proof.
  intros H. unfold push_new. destruct (existsb (N.eqb x) out) eqn:E; auto.
  apply existsb_exists in E as (y & Hy & E). apply N.eqb_eq in E. now subst.
Qed.
Lemma fold_push_all l : forall out, (forall v, In v l -> In v out) -> fold_left push_new l out = out.
Proof.
  induction l as [|v l IH]; intros out H; simpl; auto. rewrite push_new_in by (apply H; left; auto).
  apply IH. intros; apply H; right; auto.
Qed.
Lemma fold_push_one l x : forall out, (forall v, In v l -> In v out \/ v = x) -> In x l -> ~ In x out ->
  fold_left push_new l out = out ++ [x].
Proof.
  induction l as [|v l IH]; intros out H Hx Nx; [contradiction|]. simpl.
  destruct (N.eq_dec v x) as [->|D].
  - rewrite push_new_out by auto. apply fold_push_all. intros v Hv. apply in_or_app.
    destruct (H v (or_intror Hv)) as [Q| ->]; [auto|right; left; auto].
  - destruct (H v (or_introl eq_refl)) as [Q|Q]; [|contradiction]. rewrite push_new_in by auto.
    apply IH; auto. intros w Hw. apply H. right; auto. destruct Hx as [->|Hx]; [contradiction|auto].
Qed.

Lemma joins_dec (a b i x : N) : ((a = i /\ b = x) \/ (a = x /\ b = i)) \/ ~ ((a = i /\ b = x) \/ (a = x /\ b = i)).
Proof. destruct (N.eq_dec a i), (N.eq_dec b x), (N.eq_dec a x), (N.eq_dec b i); tauto. Qed.

Section Cell.
Context {V : Type}.
Variables (m : Mesh V) (c : N) (vs fs : list N) (ps : list (list N)).
Hypothesis W : wf_mesh m.
Hypothesis D : m_dim m = 3.
Hypothesis ND : NoDup vs.
Hypothesis NV : In (length vs) [4; 5; 6; 8].
Hypothesis R : ring m c fs.
Hypothesis P : Permutation ps (faces_of vs).
Hypothesis F : Forall2 (face_polygon m) fs ps.
Let n := length vs.
Let g := fun k => nth k vs 0%N.

Lemma g_inj i j : i < n -> j < n -> g i = g j -> i = j.
Proof. intros Hi Hj E. unfold g in E. rewrite NoDup_nth in ND. apply (ND i j Hi Hj E). Qed.
Lemma c_lt : (c < N.of_nat (length (m_cells m)))%N.
Proof. destruct R as (f0 & r & _ & H & _). assert (N.to_nat c < length (m_cells m)) by (apply nth_error_Some; congruence). lia. Qed.
Lemma c_lt' : (c < N.of_nat (n_elems m 3))%N.
Proof. pose proof (n_elems_cell m ltac:(lia)) as E. rewrite D in E. rewrite E. apply c_lt. Qed.

Lemma polygon_position f p : face_polygon m f p -> In p ps -> exists q, In q (shape_faces n) /\ p = map g q.
Proof. intros _ Hp. rewrite P in Hp. unfold faces_of in Hp. apply in_map_iff in Hp as (q & <- & Hq). exists q. auto. Qed.

Lemma edges_of_cell e : incident m 3 1 c e <-> exists f fc, In f fs /\ nth_error (m_faces m) (N.to_nat f) = Some fc /\ In e (f_subs fc).
Proof.
  split.
  - intros (p & Hc & L). inversion Hc as [|k t i f js p' H1 H2 H3]; subst. unfold children in H1. rewrite D in H1. cbn [Nat.eqb] in H1.
    rewrite (ring_det _ _ _ _ H1 R) in *.
    inversion H3 as [|k' t' i' e' js' p'' H4 H5 H6]; subst. unfold children in H4. rewrite D in H4. cbn [Nat.eqb] in H4.
    unfold subs in H4. rewrite D in H4. cbn [Nat.eqb Nat.sub] in H4. apply bind_ok in H4 as (fc & Hf & H4). inv H4. apply vat_ok in Hf.
    inversion H6; [|exfalso]; subst.
    + simpl. exists f, fc. auto.
    + match goal with H : chain m 0 1 _ |- _ => apply chain_le in H; lia end.
  - intros (f & fc & Hf & Hfc & He). exists [f; e]. split; [|reflexivity].
    eapply chain_step with (js := fs); [unfold children; rewrite D; exact R|exact Hf|].
    eapply chain_step with (js := f_subs fc); [|exact He|constructor].
    unfold children. rewrite D. cbn [Nat.eqb]. unfold subs. rewrite D. cbn [Nat.eqb Nat.sub]. apply vat_ok in Hfc. rewrite Hfc. reflexivity.
Qed.

Lemma edge_wf3 e f fc : nth_error (m_faces m) (N.to_nat f) = Some fc -> In e (f_subs fc) ->
  exists a b, nth_error (nth 0 (m_mid m) []) (N.to_nat e) = Some [a; b] /\ edge_ends (edges3 m) e = Ok (a, b).
Proof.
  intros Hf He.
  assert (S2 : subs m 2 f = Ok (f_subs fc)).
  { unfold subs. rewrite D. cbn [Nat.eqb Nat.sub]. apply vat_ok in Hf. rewrite Hf. reflexivity. }
  destruct (wf_subs m W 2 f _ ltac:(lia) S2) as (_ & Hr & _).
  specialize (Hr e He). unfold n_elems in Hr. rewrite D in Hr. cbn [Nat.eqb Nat.sub] in Hr.
  destruct (nth_error (nth 0 (m_mid m) []) (N.to_nat e)) as [l|] eqn:El; [|apply nth_error_None in El; lia].
  assert (S1 : subs m 1 e = Ok l).
  { unfold subs. rewrite D. cbn [Nat.eqb Nat.sub]. apply vat_ok. assumption. }
  destruct (wf_subs m W 1 e _ ltac:(lia) S1) as (_ & _ & Hl). specialize (Hl eq_refl).
  destruct l as [|a [|b [|]]]; try discriminate. exists a, b. split; [reflexivity|].
  unfold edge_ends, edges3. apply vat_ok in El. rewrite El. reflexivity.
Qed.

Lemma edge_joins e : incident m 3 1 c e -> exists a b, nth_error (edges3 m) (N.to_nat e) = Some [a; b] /\ edge_ends (edges3 m) e = Ok (a, b).
Proof. intros H. apply edges_of_cell in H as (f & fc & _ & Hfc & He). eapply edge_wf3; eassumption. Qed.

Lemma verts_of_cell v : incident m 3 0 c v <-> exists e a b, incident m 3 1 c e /\ nth_error (edges3 m) (N.to_nat e) = Some [a; b] /\ (v = a \/ v = b).
Proof.
  split.
  - intros (p & Hc & L). inversion Hc as [|k t i f js p' H1 H2 H3]; subst.
    inversion H3 as [|k' t' i' e' js' p'' H4 H5 H6]; subst.
    inversion H6 as [|k2 t2 i2 v2 js2 p2 H7 H8 H9]; subst.
    assert (I : incident m 3 1 c e').
    { exists [f; e']. split; [|reflexivity]. eapply chain_step; [exact H1|exact H2|]. eapply chain_step; [exact H4|exact H5|constructor]. }
    destruct (edge_joins e' I) as (a & b & Eab & _). exists e', a, b. splits; auto.
    unfold children in H7. rewrite D in H7. cbn [Nat.eqb] in H7. unfold subs in H7. rewrite D in H7. cbn [Nat.eqb Nat.sub] in H7.
    apply vat_ok in H7. unfold edges3 in Eab. rewrite H7 in Eab. inv Eab.
    inversion H9; subst. simpl in H8 |- *. intuition.
  - intros (e & a & b & (p & Hc & L) & Eab & Hv).
    inversion Hc as [|k t i f js p' H1 H2 H3]; subst.
    inversion H3 as [|k' t' i' e' js' p'' H4 H5 H6]; subst.
    inversion H6; subst; [|match goal with H : chain m 0 1 _ |- _ => apply chain_le in H; lia end].
    simpl in Eab. exists [f; e'; v]. split; [|reflexivity].
    eapply chain_step; [exact H1|exact H2|]. eapply chain_step; [exact H4|exact H5|].
    eapply chain_step with (js := [a; b]); [|destruct Hv as [->| ->]; simpl; auto|constructor].
    unfold children. rewrite D. cbn [Nat.eqb]. unfold subs. rewrite D. cbn [Nat.eqb Nat.sub]. apply vat_ok. exact Eab.
Qed.

Lemma run_edges : exists es, run m 2 3 c = Ok es /\ forall e, In e es <-> incident m 3 1 c e.
Proof.
  destruct (visits_exists m 3 1 c W ltac:(lia) c_lt') as (l & Hv). exists l. split.
  - apply (visits_iff_run m 3 1 c l W ltac:(lia) c_lt'). exact Hv.
  - apply visits_incident; auto. lia.
Qed.
Lemma run_verts : exists l, run m 3 3 c = Ok l /\ forall v, In v l <-> incident m 3 0 c v.
Proof.
  destruct (visits_exists m 3 0 c W ltac:(lia) c_lt') as (l & Hv). exists l. split.
  - apply (visits_iff_run m 3 0 c l W ltac:(lia) c_lt'). exact Hv.
  - apply visits_incident; auto. lia.
Qed.

Lemma pair_eqb_iff a b x y : pair_eqb (a, b) (x, y) = true <-> (a = x /\ b = y) \/ (a = y /\ b = x).
Proof. unfold pair_eqb. cbn [fst snd]. rewrite orb_true_iff, !andb_true_iff, !Nat.eqb_eq. reflexivity. Qed.

(** The edges of the cell are the sides of the faces of the shape. *)
Lemma cell_sides a b : (exists e, incident m 3 1 c e /\ joins (edges3 m) e a b) <->
  exists i j, i < n /\ j < n /\ a = g i /\ b = g j /\ adj n i j = true.
Proof.
  assert (Q : forall q, In q (shape_faces n) -> (has_side (map g q) a b <->
     exists i j, i < n /\ j < n /\ a = g i /\ b = g j /\ existsb (pair_eqb (i, j)) (ncyc q) = true)).
  { intros q Hq. unfold has_side. split.
    - intros (k & Hs).
      assert (T : forall x y, side (map g q) k x y -> exists i j, i < n /\ j < n /\ x = g i /\ y = g j /\ In (i, j) (ncyc q)).
      { intros x y Hs'. apply cyc_pairs_nth in Hs'. rewrite ncyc_map in Hs'. rewrite nth_error_map in Hs'.
        destruct (nth_error (ncyc q) k) as [[i j]|] eqn:E; [|discriminate]. simpl in Hs'. inv Hs'.
        apply nth_error_In in E.
        assert (B : In i q /\ In j q).
        { unfold ncyc in E. destruct q as [|v r]; [destruct E|]. split; [eapply in_combine_l; exact E|].
          apply in_combine_r in E. apply in_app_or in E as [E|[<-|[]]]; simpl; auto. }
        destruct B. exists i, j. splits; auto; eapply shape_bound; eassumption. }
      destruct Hs as [Hs|Hs]; destruct (T _ _ Hs) as (i & j & Hi & Hj & E1 & E2 & HI); [exists i, j|exists j, i]; splits; auto;
        apply existsb_exists; exists (i, j); (split; [assumption|]); apply pair_eqb_iff; auto.
    - intros (i & j & Hi & Hj & -> & -> & E). apply existsb_exists in E as ([x y] & HI & E).
      apply In_nth_error in HI as [k Hk]. exists k.
      assert (S : side (map g q) k (g x) (g y)) by (apply cyc_pairs_nth; rewrite ncyc_map, nth_error_map, Hk; reflexivity).
      apply pair_eqb_iff in E as [[-> ->]|[-> ->]]; auto. }
  assert (G : (exists e, incident m 3 1 c e /\ joins (edges3 m) e a b) <-> exists p, In p (faces_of vs) /\ has_side p a b).
  { split.
    - intros (e & I & J). apply edges_of_cell in I as (f & fc & Hf & Hfc & He).
      destruct (Forall2_In_l _ _ _ _ F Hf) as (p & Hp & fc' & Hfc' & B). rewrite Hfc in Hfc'. inv Hfc'.
      exists p. split; [rewrite <- P; auto|]. apply (bounds_has_side _ _ _ a b B). eauto.
    - intros (p & Hp & Hs). rewrite <- P in Hp. destruct (Forall2_In_r _ _ _ _ F Hp) as (f & Hf & fc & Hfc & B).
      apply (bounds_has_side _ _ _ a b B) in Hs as (e & He & J). exists e. split; auto. apply edges_of_cell. eauto. }
  rewrite G. unfold faces_of. fold n. fold g. split.
  - intros (p & Hp & Hs). apply in_map_iff in Hp as (q & <- & Hq). apply (Q q Hq) in Hs as (i & j & Hi & Hj & E1 & E2 & E).
    exists i, j. splits; auto. unfold adj. apply existsb_exists. eauto.
  - intros (i & j & Hi & Hj & E1 & E2 & E). unfold adj in E. apply existsb_exists in E as (q & Hq & E).
    exists (map g q). split; [apply in_map_iff; eauto|]. apply Q; auto. exists i, j. auto.
Qed.

Lemma cell_verts v : incident m 3 0 c v <-> In v vs.
Proof.
  rewrite verts_of_cell. split.
  - intros (e & a & b & I & Eab & Hv). assert (J : joins (edges3 m) e a b) by (left; auto).
    destruct (proj1 (cell_sides a b) (ex_intro _ e (conj I J))) as (i & j & Hi & Hj & -> & -> & _).
    destruct Hv as [->| ->]; apply nth_In; auto.
  - intros Hv. apply In_nth with (d := 0%N) in Hv as (k & Hk & E).
    assert (A : exists j, j < n /\ adj n k j = true).
    { assert (Q : forallb (fun n => forallb (fun k => existsb (adj n k) (seq 0 n)) (seq 0 n)) [4; 5; 6; 8] = true) by (vm_compute; reflexivity).
      rewrite forallb_forall in Q. specialize (Q n NV). rewrite forallb_forall in Q. specialize (Q k). rewrite in_seq in Q.
      specialize (Q ltac:(unfold n; lia)). apply existsb_exists in Q as (j & Hj & Q). apply in_seq in Hj. exists j. split; [lia|auto]. }
    destruct A as (j & Hj & A). destruct (proj2 (cell_sides v (g j))) as (e & I & J).
    { exists k, j. splits; auto. }
    destruct J as [J|J]; eauto 8.
Qed.

(** * The vertex lists written *)
Variable ori : list (list bool).
Hypothesis O : Forall2 (fun o f => length o = length (f_subs f)) ori (m_faces m).

Lemma indexFace3_solid f q : In f fs -> face_polygon m f (map g q) -> exists b, indexFace3 ori m f c = Ok (map g b) /\ In b (dihedral q).
Proof.
  intros Hf (fc & Hfc & B). unfold indexFace3. pose proof Hfc as H1. apply vat_ok in H1. rewrite H1. cbn [bind].
  assert (Ho : exists o, nth_error ori (N.to_nat f) = Some o /\ length o = length (f_subs fc)).
  { apply Forall2_nth in O as [L O']. destruct (nth_error ori (N.to_nat f)) as [o|] eqn:E.
    - exists o. split; auto. eapply O'; eassumption.
    - apply nth_error_None in E. assert (N.to_nat f < length (m_faces m)) by (apply nth_error_Some; congruence). lia. }
  destruct Ho as (o & Ho & Lo). apply vat_ok in Ho. rewrite Ho. cbn [bind].
  destruct (bounds_cons _ _ _ B) as (e0 & rest & E). rewrite E in *.
  destruct o as [|o0 o]; [discriminate|]. replace (vidx (o0 :: o) 0) with (Ok o0) by reflexivity.
  replace (vidx (e0 :: rest) 0) with (Ok e0) by reflexivity. cbn [bind].
  destruct (bounds_ends _ _ _ _ B) as (a & b & Hab). unfold edge_ends, edges3. pose proof Hab as F0. apply vat_ok in F0. rewrite F0. cbn [bind fst snd].
  destruct (o0 && (c =? cellLeft (bc (f_conn fc)))%N).
  - destruct (index_loop_spec _ e0 rest _ b a (2 * length (e0 :: rest) + 2) B) as (r & E1 & SP); [right; auto|lia|].
    destruct (same_polygon_dihedral g _ _ SP) as (b0 & Hb & Eb). exists b0. rewrite <- Eb. auto.
  - destruct (index_loop_spec _ e0 rest _ a b (2 * length (e0 :: rest) + 2) B) as (r & E1 & SP); [left; auto|lia|].
    destruct (same_polygon_dihedral g _ _ SP) as (b0 & Hb & Eb). exists b0. rewrite <- Eb. auto.
Qed.

Lemma dihedral_bound q b k : In q (shape_faces n) -> In b (dihedral q) -> In k b -> k < n.
Proof. intros Hq Hb Hk. eapply shape_bound; [exact Hq|]. rewrite (dihedral_perm _ _ Hb). exact Hk. Qed.
Lemma in_map_g b k : k < n -> (forall j, In j b -> j < n) -> (In (g k) (map g b) <-> In k b).
Proof.
  intros Hk Hb. split; [|apply in_map]. intros H. apply in_map_iff in H as (j & E & Hj). apply g_inj in E; auto. now subst.
Qed.

Lemma pyramid_solid (ok : nat -> bool) f q : pyr_ok n ok = true -> In f fs -> In q (shape_faces n) -> ok (length q) = true ->
  face_polygon m f (map g q) ->
  exists pi, indexPyramid ori m c f = Ok (map g pi) /\ symmetry n pi = true.
Proof.
  intros K Hf Hq Ok1 B. destruct (indexFace3_solid f q Hf B) as (b & E & Hb).
  unfold pyr_ok in K. rewrite forallb_forall in K. specialize (K q Hq). rewrite Ok1 in K. cbn [negb orb] in K.
  rewrite forallb_forall in K. specialize (K b Hb). destruct (missing n b) as [|x [|]] eqn:Em; try discriminate.
  exists (b ++ [x]). split; auto. unfold indexPyramid. rewrite E. cbn [bind].
  destruct run_verts as (l & El & Hl). rewrite El. cbn [bind].
  assert (Bb : forall k, In k b -> k < n) by (intros k; eapply dihedral_bound; eassumption).
  assert (Hx : x < n /\ ~ In x b).
  { assert (H : In x (missing n b)) by (rewrite Em; left; auto). apply filter_In in H as [H1 H2]. apply in_seq in H1.
    split; [lia|]. intros H. apply mem_iff in H. rewrite H in H2. discriminate. }
  rewrite map_app. cbn [map]. f_equal. apply fold_push_one.
  - intros v Hv. apply Hl, cell_verts in Hv. apply In_nth with (d := 0%N) in Hv as (k & Hk & Ek). fold n in Hk.
    destruct (mem k b) eqn:Emk.
    + left. apply mem_iff in Emk. rewrite <- Ek. now apply (in_map g).
    + right. assert (H : In k (missing n b)) by (apply filter_In; split; [apply in_seq; lia|now rewrite Emk]).
      rewrite Em in H. destruct H as [->|[]]. now rewrite <- Ek.
  - apply Hl, cell_verts. apply nth_In. tauto.
  - rewrite in_map_g; tauto.
Qed.

(** One step of indexLinearObject: exactly one neighbour of the base vertex is new. *)
Lemma opposite_step es index x : forall out,
  (forall e, In e es -> exists a b, edge_ends (edges3 m) e = Ok (a, b) /\ nth_error (edges3 m) (N.to_nat e) = Some [a; b]) ->
  (forall e y, In e es -> joins (edges3 m) e index y -> In y out \/ y = x) ->
  (In x out \/ exists e, In e es /\ joins (edges3 m) e index x) ->
  foldM (push_opposite m index) es out = Ok (if existsb (N.eqb x) out then out else out ++ [x]).
Proof.
  assert (G : forall es out,
    (forall e, In e es -> exists a b, edge_ends (edges3 m) e = Ok (a, b) /\ nth_error (edges3 m) (N.to_nat e) = Some [a; b]) ->
    (forall e y, In e es -> joins (edges3 m) e index y -> In y out) ->
    foldM (push_opposite m index) es out = Ok out).
  { induction es0 as [|e es0 IH]; intros out He Hy; [reflexivity|]. cbn [foldM].
    destruct (He e (or_introl eq_refl)) as (a & b & E1 & E2). unfold push_opposite at 1. rewrite E1. cbn [bind fst snd].
    assert (S1 : (if (a =? index)%N then push_new out b else out) = out).
    { destruct (N.eqb_spec a index) as [->|]; auto. apply push_new_in. apply (Hy e b); [left; auto|left; auto]. }
    rewrite S1.
    assert (S2 : (if (b =? index)%N then push_new out a else out) = out).
    { destruct (N.eqb_spec b index) as [->|]; auto. apply push_new_in. apply (Hy e a); [left; auto|right; auto]. }
    rewrite S2. apply IH; [intros e' He'; apply He; right; auto|intros e' y He' J; apply (Hy e' y); [right; auto|auto]]. }
  induction es as [|e es IH]; intros out He Hy Hx.
  - destruct Hx as [Hx|(e & [] & _)]. cbn [foldM]. assert (E : existsb (N.eqb x) out = true).
    { apply existsb_exists. exists x. split; auto. apply N.eqb_refl. }
    now rewrite E.
  - destruct (existsb (N.eqb x) out) eqn:Ex.
    { apply existsb_exists in Ex as (y & Hy' & E). apply N.eqb_eq in E. subst y.
      apply G; auto. intros e' y He' J. destruct (Hy e' y He' J) as [| ->]; auto. }
    assert (Nx : ~ In x out).
    { intros H. assert (existsb (N.eqb x) out = true) by (apply existsb_exists; exists x; split; auto; apply N.eqb_refl). congruence. }
    cbn [foldM]. destruct (He e (or_introl eq_refl)) as (a & b & E1 & E2). unfold push_opposite at 1. rewrite E1. cbn [bind fst snd].
    assert (Done : forall out1, out1 = out ++ [x] -> foldM (push_opposite m index) es out1 = Ok (out ++ [x])).
    { intros out1 ->. apply G; [intros; apply He; right; auto|]. intros e' y He' J. apply in_or_app.
      destruct (Hy e' y (or_intror He') J) as [| ->]; [auto|right; left; auto]. }
    assert (Ca : a = index -> b = x \/ In b out) by (intros ->; destruct (Hy e b (or_introl eq_refl) (or_introl E2)); auto).
    assert (Cb : b = index -> a = x \/ In a out) by (intros ->; destruct (Hy e a (or_introl eq_refl) (or_intror E2)); auto).
    destruct (joins_dec a b index x) as [J|J].
    + apply Done. destruct J as [[-> ->]|[-> ->]].
      * rewrite N.eqb_refl, (push_new_out x out) by auto. destruct (N.eqb_spec x index) as [->|]; auto.
        apply push_new_in. apply in_or_app. right. left. auto.
      * rewrite N.eqb_refl. destruct (N.eqb_spec x index) as [->|]; [|now apply push_new_out].
        rewrite (push_new_out index out) by auto. apply push_new_in. apply in_or_app. right. left. auto.
    + assert (S1 : (if (a =? index)%N then push_new out b else out) = out).
      { destruct (N.eqb_spec a index) as [->|]; auto. apply push_new_in. destruct (Ca eq_refl) as [->|]; auto. exfalso. apply J. auto. }
      rewrite S1.
      assert (S2 : (if (b =? index)%N then push_new out a else out) = out).
      { destruct (N.eqb_spec b index) as [->|]; auto. apply push_new_in. destruct (Cb eq_refl) as [->|]; auto. exfalso. apply J. auto. }
      rewrite S2. specialize (IH out). rewrite Ex in IH. apply IH.
      * intros; apply He; right; auto.
      * intros e' y He' Je. apply (Hy e' y); [right; auto|auto].
      * destruct Hx as [Hx|(e' & [<-|He'] & Je)]; [auto| |eauto].
        exfalso. apply J. destruct Je as [Je|Je]; rewrite E2 in Je; inv Je; auto.
Qed.

Lemma linear_solid (ok : nat -> bool) f q : lin_ok n ok = true -> In f fs -> In q (shape_faces n) -> ok (length q) = true ->
  face_polygon m f (map g q) ->
  exists pi, indexLinear ori m c f = Ok (map g pi) /\ symmetry n pi = true.
Proof.
  intros K Hf Hq Ok1 B. destruct (indexFace3_solid f q Hf B) as (b & E & Hb).
  unfold lin_ok in K. rewrite forallb_forall in K. specialize (K q Hq). rewrite Ok1 in K. cbn [negb orb] in K.
  rewrite forallb_forall in K. specialize (K b Hb). destruct (tops n b) as [ts|] eqn:Et; [|discriminate].
  apply andb_true_iff in K as [K KN]. apply nodupnb_sound in KN.
  exists (b ++ ts). split; auto. unfold indexLinear. rewrite E. cbn [bind]. rewrite map_length.
  assert (Bb : forall k, In k b -> k < n) by (intros k; eapply dihedral_bound; eassumption).
  unfold tops in Et. apply all_some_Forall2 in Et.
  assert (Ft : Forall2 (fun a t => t < n /\ ~ In t b /\ adj n a t = true /\ forall j, j < n -> adj n a j = true -> In j b \/ j = t) b ts).
  { eapply Forall2_mono; [|exact Et]. intros a t H. cbv beta in H. destruct (filter _ _) as [|x [|]] eqn:Ef; try discriminate. inv H.
    assert (H : In t [t]) by (left; auto). rewrite <- Ef in H. apply filter_In in H as [H1 H2]. apply in_seq in H1.
    apply andb_true_iff in H2 as [H2 H3]. apply negb_true_iff in H3. splits; auto; try lia.
    - intros H. apply mem_iff in H. congruence.
    - intros j Hj Ha. destruct (mem j b) eqn:Em; [left; now apply mem_iff|]. right.
      assert (H : In j (filter (fun x => adj n a x && negb (mem x b)) (seq 0 n))).
      { apply filter_In. split; [apply in_seq; lia|]. now rewrite Ha, Em. }
      rewrite Ef in H. destruct H as [->|[]]. auto. }
  pose proof (Forall2_length' _ _ _ Ft) as Lt.
  destruct run_edges as (es & Er & Hes). rewrite Er. cbn [bind].
  assert (G : forall ts2 ts1 b1 b2, b = b1 ++ b2 -> ts = ts1 ++ ts2 -> length b1 = length ts1 ->
     foldM (fun out i => index <- vidx out i ;; foldM (push_opposite m index) es out)
           (map N.of_nat (seq (length ts1) (length ts2))) (map g (b ++ ts1)) = Ok (map g (b ++ ts1 ++ ts2))).
  { induction ts2 as [|t ts2 IH]; intros ts1 b1 b2 Eb Ets L1.
    - cbn [length seq map foldM]. now rewrite app_nil_r.
    - assert (b2 <> []) as Nb.
      { intros ->. rewrite Eb, Ets, !app_length in Lt. simpl in Lt. lia. }
      destruct b2 as [|a b2]; [contradiction|].
      assert (Ha : t < n /\ ~ In t b /\ adj n a t = true /\ forall j, j < n -> adj n a j = true -> In j b \/ j = t).
      { apply Forall2_nth in Ft as [_ Ft]. apply (Ft (length ts1)).
        - rewrite Eb, nth_error_app2, L1, Nat.sub_diag by lia. reflexivity.
        - rewrite Ets, nth_error_app2, Nat.sub_diag by lia. reflexivity. }
      destruct Ha as (Tn & Tb & Ta & Tu).
      assert (An : a < n) by (apply Bb; rewrite Eb; apply in_or_app; right; left; auto).
      cbn [length seq map foldM].
      assert (Ei : vidx (map g (b ++ ts1)) (N.of_nat (length ts1)) = Ok (g a)).
      { apply vidx_ok. rewrite Nat2N.id, nth_error_map, Eb, <- app_assoc, nth_error_app2, L1, Nat.sub_diag by lia. reflexivity. }
      rewrite Ei. cbn [bind].
      assert (Nt : ~ In t (b ++ ts1)).
      { rewrite Ets, app_assoc in KN. apply NoDup_remove_2 in KN. intros H. apply KN. apply in_or_app. left. exact H. }
      assert (Bt1 : forall j, In j (b ++ ts1) -> j < n).
      { intros j Hj. apply in_app_or in Hj as [Hj|Hj]; auto.
        assert (Hj' : In j ts) by (rewrite Ets; apply in_or_app; auto).
        destruct (Forall2_In_r _ _ _ _ Ft Hj') as (a' & _ & H & _). exact H. }
      rewrite (opposite_step es (g a) (g t)).
      + assert (Ex : existsb (N.eqb (g t)) (map g (b ++ ts1)) = false).
        { apply Bool.not_true_is_false. intros H. apply existsb_exists in H as (y & Hy & H). apply N.eqb_eq in H. subst y.
          apply in_map_g in Hy; auto. }
        rewrite Ex. cbn [bind].
        specialize (IH (ts1 ++ [t]) (b1 ++ [a]) b2). rewrite !app_length in IH. cbn [length] in IH.
        replace (length ts1 + 1) with (S (length ts1)) in IH by lia.
        replace (map g (b ++ ts1) ++ [g t]) with (map g (b ++ ts1 ++ [t])) by (rewrite !map_app, <- app_assoc; reflexivity).
        rewrite IH; [rewrite <- app_assoc; reflexivity|rewrite <- app_assoc; exact Eb|rewrite <- app_assoc; exact Ets|lia].
      + intros e He. apply Hes in He. destruct (edge_joins e He) as (x & y & H1 & H2). eauto.
      + intros e y He J. apply Hes in He. destruct (proj1 (cell_sides (g a) y) (ex_intro _ e (conj He J))) as (i & j & Hi & Hj & E1 & -> & A).
        apply g_inj in E1; auto. subst i. destruct (Tu j Hj A) as [H| ->]; auto. left. apply in_map. apply in_or_app. auto.
      + right. destruct (proj2 (cell_sides (g a) (g t))) as (e & I & J); [exists a, t; splits; auto|].
        exists e. split; auto. now apply Hes. }
  specialize (G ts [] [] b eq_refl eq_refl eq_refl). cbn [length app] in G. rewrite app_nil_r in G.
  unfold seqN. rewrite Lt. exact G.
Qed.

(** * The base faces *)
Lemma face_of f : In f fs -> exists fc q, nth_error (m_faces m) (N.to_nat f) = Some fc /\ In q (shape_faces n) /\
  face_polygon m f (map g q) /\ length (f_subs fc) = length q.
Proof.
  intros Hf. destruct (Forall2_In_l _ _ _ _ F Hf) as (p & Hp & FP). destruct (polygon_position f p FP Hp) as (q & Hq & ->).
  destruct FP as (fc & Hfc & B). exists fc, q. splits; auto. exists fc. auto.
  rewrite (bounds_length _ _ _ B). apply map_length.
Qed.
Lemma face_at q : In q (shape_faces n) -> exists f fc, In f fs /\ nth_error (m_faces m) (N.to_nat f) = Some fc /\ length (f_subs fc) = length q.
Proof.
  intros Hq. assert (Hp : In (map g q) ps) by (rewrite P; unfold faces_of; apply in_map_iff; exists q; auto).
  destruct (Forall2_In_r _ _ _ _ F Hp) as (f & Hf & fc & Hfc & B).
  exists f, fc. splits; auto. rewrite (bounds_length _ _ _ B). apply map_length.
Qed.
Lemma cell_faces_spec : exists l, cell_faces m c = Ok l /\
  Forall2 (fun f x => fst x = f /\ exists fc, nth_error (m_faces m) (N.to_nat f) = Some fc /\ snd x = length (f_subs fc)) fs l.
Proof.
  unfold cell_faces. rewrite (run1_ring m c fs D R). cbn [bind].
  assert (H : forall f, In f fs -> exists fc, nth_error (m_faces m) (N.to_nat f) = Some fc).
  { intros f Hf. destruct (face_of f Hf) as (fc & _ & H & _). eauto. }
  clear - H. induction fs as [|f l IH]; [exists []; split; [reflexivity|constructor]|].
  destruct (H f (or_introl eq_refl)) as (fc & Hfc). destruct IH as (k & Ek & Fk); [intros; apply H; right; auto|].
  exists ((f, length (f_subs fc)) :: k). split.
  - cbn [mapM]. pose proof Hfc as Hv. apply vat_ok in Hv. rewrite Hv. cbn [bind]. rewrite Ek. reflexivity.
  - constructor; [split; [reflexivity|eauto]|exact Fk].
Qed.
Lemma find_base (ok : nat -> bool) l k : Permutation k l ->
  Forall2 (fun f x => fst x = f /\ exists fc, nth_error (m_faces m) (N.to_nat f) = Some fc /\ snd x = length (f_subs fc)) fs l ->
  (exists q, In q (shape_faces n) /\ ok (length q) = true) ->
  exists x q, find (fun x => ok (snd x)) k = Some x /\ In (fst x) fs /\ In q (shape_faces n) /\ ok (length q) = true /\ face_polygon m (fst x) (map g q).
Proof.
  intros Pk Fl (q & Hq & Ok1). destruct (find (fun x => ok (snd x)) k) as [x|] eqn:Ef.
  - apply find_some in Ef as [Hx Ox]. rewrite Pk in Hx.
    destruct (Forall2_In_r _ _ _ _ Fl Hx)
      as (f & Hf & E1 & fc & Hfc & E2). subst f.
    destruct (face_of (fst x) Hf) as (fc' & q' & Hfc' & Hq' & FP & L). rewrite Hfc in Hfc'. inv Hfc'.
    exists x, q'. splits; auto. congruence.
  - exfalso. destruct (face_at q Hq) as (f & fc & Hf & Hfc & L). destruct (Forall2_In_l _ _ _ _ Fl Hf) as (x & Hx & E1 & fc' & Hfc' & E2).
    rewrite Hfc in Hfc'. inv Hfc'. rewrite <- Pk in Hx. pose proof (find_none _ _ Ef x Hx) as Q. cbv beta in Q. rewrite E2, L in Q. congruence.
Qed.
Lemma first_face : exists f0, nth_error (m_cells m) (N.to_nat c) = Some f0 /\ In f0 fs.
Proof. destruct R as (f0 & r & -> & H & _). exists f0. split; auto. left. auto. Qed.

Variables (ccenter fcenter : N -> V) (key : V -> string).
Lemma index_cell_solid types ty t : nth_error types (N.to_nat c) = Some ty -> solid_size ty = Some n ->
  exists pi, index_cell3 ori ccenter fcenter key m types t c = Ok (push_cell (map g pi) ty t) /\ symmetry n pi = true.
Proof.
  intros Hty S. unfold index_cell3. apply vat_ok in Hty. rewrite Hty. cbn [bind].
  destruct first_face as (f0 & H0 & Hf0). destruct (face_of f0 Hf0) as (fc0 & q0 & _ & Hq0 & FP0 & _). apply vat_ok in H0.
  destruct cell_faces_spec as (l & El & Fl).
  destruct ty; try discriminate; injection S as S; cbn [native3].
  - (* TETRA *) rewrite H0. cbn [bind]. destruct (pyramid_solid (fun _ => true) f0 q0) as (pi & E & Sy); auto; [rewrite <- S; exact pyr4|].
    rewrite E. exists pi. auto.
  - (* HEXAHEDRON *) rewrite H0. cbn [bind]. destruct (linear_solid (fun _ => true) f0 q0) as (pi & E & Sy); auto; [rewrite <- S; exact lin8|].
    rewrite E. exists pi. auto.
  - (* WEDGE *) rewrite El. cbn [bind]. unfold base_wedge.
    destruct (find_base (fun x => x =? 3) l l (Permutation_refl _) Fl) as (x & q & Ef & Hx & Hq & Ok1 & FP).
    { exists [0;1;2]. rewrite <- S. simpl. auto. }
    rewrite Ef. cbn [bind]. destruct (linear_solid (fun x => x =? 3) (fst x) q) as (pi & E & Sy); auto; [rewrite <- S; exact lin6|].
    rewrite E. exists pi. auto.
  - (* PYRAMID *) rewrite El. cbn [bind]. unfold base_pyramid.
    destruct (find_base (fun x => 3 <? x) l (rev l) (Permutation_sym (Permutation_rev _)) Fl) as (x & q & Ef & Hx & Hq & Ok1 & FP).
    { exists [0;1;2;3]. rewrite <- S. simpl. auto. }
    rewrite Ef. cbn [bind]. destruct (pyramid_solid (fun x => 3 <? x) (fst x) q) as (pi & E & Sy); auto; [rewrite <- S; exact pyr5|].
    rewrite E. exists pi. auto.
Qed.
End Cell.

(** C06, continued: adding the boundary cells does not disturb the topology. *)
From Verif Require Import P_Base M_Index P_Index M_Conn M_Mesh M_Apply S_Mesh P_Apply S_Boundary P_Boundary T_Mesh Ex_Mesh.

Lemma bcode_not_plain k c : (c < 2 ^ 63)%N -> bcode k <> c.
Proof.
  intros Hc E. pose proof (isBoundary_make 64 (N.of_nat k)) as H. fold (bcode k) in H. rewrite E in H.
  assert (H2 : isBoundaryIndex 64 c = false); [|congruence].
  apply plain_not_boundary; [lia| |exact Hc]. eapply N.lt_trans; [exact Hc|]. reflexivity.
Qed.
Lemma getNext_face_after n f c : (c < 2 ^ 63)%N -> getNextBElem (f_conn (face_after n f)) c = getNextBElem (f_conn f) c.
Proof.
  intros Hc. assert (Hi : c <> INVALID) by (rewrite <- INVALID_64; intros ->; vm_compute in Hc; discriminate).
  unfold getNextBElem, face_after, cellOn. cbn [f_conn bc nextL nextR cellLeft cellRight].
  destruct (N.eqb_spec c INVALID) as [|_]; [contradiction|].
  assert (Q : forall s x, (c =? (if (s =? INVALID) then bcode x else s))%N = (c =? s)%N).
  { intros s x. destruct (N.eqb_spec s INVALID) as [->|]; [|reflexivity].
    destruct (N.eqb_spec c INVALID); [contradiction|]. apply N.eqb_neq. intros E. symmetry in E. revert E. apply bcode_not_plain. assumption. }
  rewrite !Q. reflexivity.
Qed.

Section Topo.
Context {V : Type}.
Implicit Type m : Mesh V.

Lemma setup_faces m : m_faces (setupBoundaryCells m) = faces_after (length (m_bcells m)) 0 (m_faces m).
Proof. unfold setupBoundaryCells. change 0%N with (N.of_nat 0). rewrite (setupLoop_spec (m_faces m) (m_bcells m) 0). reflexivity. Qed.
Lemma setup_rest m : let m' := setupBoundaryCells m in
  m_dim m' = m_dim m /\ m_verts m' = m_verts m /\ m_mid m' = m_mid m /\ m_cells m' = m_cells m.
Proof. unfold setupBoundaryCells. destruct (setupLoop _ _ _). auto. Qed.
Lemma setup_face_nth m i f' : nth_error (m_faces (setupBoundaryCells m)) i = Some f' ->
  exists f n, nth_error (m_faces m) i = Some f /\ f' = face_after n f.
Proof.
  rewrite setup_faces. intros H. destruct (nth_error (m_faces m) i) as [f|] eqn:E.
  - destruct (faces_after_nth (length (m_bcells m)) 0 _ _ _ E) as (k & Hk & _). exists f, k. split; congruence.
  - apply nth_error_None in E. rewrite (proj2 (nth_error_None _ _)) in H; [discriminate|]. rewrite faces_after_length. assumption.
Qed.
Lemma setup_face_vat m i : vat (m_faces m) i = Throw /\ vat (m_faces (setupBoundaryCells m)) i = Throw \/
  exists f n, vat (m_faces m) i = Ok f /\ vat (m_faces (setupBoundaryCells m)) i = Ok (face_after n f).
Proof.
  assert (L : length (m_faces (setupBoundaryCells m)) = length (m_faces m)) by (rewrite setup_faces; apply faces_after_length).
  destruct (vat_cases (m_faces m) i) as [[f E]|E]; [right|left; split; [assumption|]].
  - apply vat_ok in E. destruct (faces_after_nth (length (m_bcells m)) 0 _ _ _ E) as (k & Hk & _).
    exists f, k. split; apply vat_ok; [assumption|]. rewrite setup_faces. assumption.
  - unfold vat in *. rewrite L. destruct (i <? N.of_nat (length (m_faces m)))%N eqn:Hl; [|reflexivity].
    exfalso. destruct (nth_error (m_faces m) (N.to_nat i)) eqn:En; [discriminate|]. apply nth_error_None in En. apply N.ltb_lt in Hl. lia.
Qed.
Lemma setup_subs m k i : subs (setupBoundaryCells m) k i = subs m k i.
Proof.
  pose proof (setup_rest m) as (D & _ & M & _). unfold subs. rewrite D, M. destruct (k =? m_dim m - 1); [|reflexivity].
  destruct (setup_face_vat m i) as [[-> ->]|(f & n & -> & ->)]; reflexivity.
Qed.
Lemma setup_n_elems m k : n_elems (setupBoundaryCells m) k = n_elems m k.
Proof.
  pose proof (setup_rest m) as (D & Hv & M & C). unfold n_elems. rewrite D, Hv, M, C, setup_faces, faces_after_length. reflexivity.
Qed.
Lemma setup_ring_step {X} m c (b1 b2 : N -> outcome X) f : (c < 2 ^ 63)%N -> b1 f = b2 f ->
  ring_step (setupBoundaryCells m) c b1 f = ring_step m c b2 f.
Proof.
  intros Hc Hb. unfold ring_step. rewrite Hb. destruct (b2 f); try reflexivity. cbn [bind].
  destruct (setup_face_vat m f) as [[-> ->]|(fc & n & -> & ->)]; [reflexivity|]. cbn [bind].
  rewrite getNext_face_after by assumption. reflexivity.
Qed.
Lemma do_while_ext {X} (s1 s2 : N -> outcome (X * N)) : (forall f, s1 f = s2 f) -> forall fuel st cur, do_while fuel s1 st cur = do_while fuel s2 st cur.
Proof.
  intros H fuel st. induction fuel as [|k IH]; intros cur; [reflexivity|]. cbn [do_while]. rewrite H.
  destruct (s2 cur) as [[x n]| | |]; try reflexivity. cbn [bind fst snd]. destruct (n =? st)%N; [reflexivity|]. rewrite IH. reflexivity.
Qed.
Lemma setup_ring_walk {X} m c (b1 b2 : N -> outcome X) : (c < 2 ^ 63)%N -> (forall f, b1 f = b2 f) ->
  ring_walk (setupBoundaryCells m) c b1 = ring_walk m c b2.
Proof.
  intros Hc Hb. pose proof (setup_rest m) as (_ & _ & _ & C). unfold ring_walk. rewrite C.
  destruct (vat (m_cells m) c) as [b| | |]; try reflexivity. cbn [bind].
  rewrite setup_faces, faces_after_length. apply do_while_ext. intros f. apply setup_ring_step; auto.
Qed.
Lemma setup_run_low m : (1 <= m_dim m) -> forall steps cur i, cur < m_dim m -> run (setupBoundaryCells m) steps cur i = run m steps cur i.
Proof.
  intros HD. pose proof (setup_rest m) as (D & _). induction steps as [|s IH]; intros cur i Hc; [reflexivity|]. cbn [run]. rewrite D.
  destruct (Nat.eqb_spec cur (m_dim m)); [lia|]. rewrite setup_subs. destruct (subs m cur i) as [js| | |]; try reflexivity. cbn [bind].
  rewrite (mapM_ext (run (setupBoundaryCells m) s (cur - 1)) (run m s (cur - 1))); [reflexivity|].
  intros j _. apply IH. lia.
Qed.
Lemma setup_run m steps cur i : (1 <= m_dim m) -> (i < 2 ^ 63)%N -> cur <= m_dim m ->
  run (setupBoundaryCells m) steps cur i = run m steps cur i.
Proof.
  intros HD Hi Hc. destruct (Nat.eq_dec cur (m_dim m)) as [->|]; [|apply setup_run_low; lia].
  destruct steps as [|s]; [reflexivity|]. cbn [run]. pose proof (setup_rest m) as (D & _). rewrite D, Nat.eqb_refl.
  rewrite (setup_ring_walk m i _ (run m s (m_dim m - 1)) Hi); [reflexivity|]. intros f. apply setup_run_low; lia.
Qed.
Lemma setup_ring m c fs : (c < 2 ^ 63)%N -> ring (setupBoundaryCells m) c fs <-> ring m c fs.
Proof. intros Hc. rewrite !ring_iff. rewrite (setup_ring_walk m c _ (fun f => Ok f) Hc) by reflexivity. reflexivity. Qed.
End Topo.

(** C06. As long as cell numbers stay below the boundary flag (2^63), setupBoundaryCells keeps the element counts, the boundary
    walk of every cell, well-formedness, and the calls of every traversal, whatever its dimensions. *)
Theorem C06_topology_kept : forall V (m : Mesh V), 1 <= m_dim m -> (N.of_nat (length (m_cells m)) <= 2 ^ 63)%N ->
  let m' := setupBoundaryCells m in
  (forall k, n_elems m' k = n_elems m k) /\
  (forall k i, subs m' k i = subs m k i) /\
  (forall c fs, ring m' c fs <-> ring m c fs) /\
  (wf_mesh m <-> wf_mesh m') /\
  (forall s t, s <= m_dim m -> t <= m_dim m -> (N.of_nat (n_elems m (Nat.max s t)) <= 2 ^ 63)%N -> apply m' s t = apply m s t) /\
  (forall s t i, s <= m_dim m -> t <= s -> (i < 2 ^ 63)%N -> apply1 m' s t i = apply1 m s t i).
Proof.
  intros V m HD HC m'.
  assert (R : forall c fs, ring m' c fs <-> ring m c fs).
  { intros c fs. destruct (N.lt_ge_cases c (2 ^ 63)) as [Hc|Hc]; [apply setup_ring; assumption|].
    pose proof (setup_rest m) as (_ & _ & _ & C). split; intros (f0 & r & _ & H & _); exfalso.
    - change (m_cells m' = m_cells m) in C. rewrite C in H. assert (N.to_nat c < length (m_cells m)) by (apply nth_error_Some; congruence). lia.
    - assert (N.to_nat c < length (m_cells m)) by (apply nth_error_Some; congruence). lia. }
  pose proof (setup_rest m) as (D & Hv & M & C).
  splits.
  - intros k. apply setup_n_elems.
  - intros k i. apply setup_subs.
  - exact R.
  - change (m_dim m' = m_dim m) in D. change (m_mid m' = m_mid m) in M. change (m_cells m' = m_cells m) in C.
    split; intros [W1 W2 W3 W4]; constructor.
    + rewrite D. assumption.
    + rewrite D, M. assumption.
    + intros k i js Hk Hs. unfold m' in Hs. rewrite setup_subs in Hs. rewrite D in Hk.
      unfold m'. rewrite setup_n_elems. eauto.
    + intros c Hc. rewrite C in Hc. destruct (W4 c Hc) as (fs & Hfs). exists fs. apply R. assumption.
    + rewrite <- D. assumption.
    + rewrite <- D, <- M. assumption.
    + intros k i js Hk Hs. rewrite <- (setup_n_elems m (k - 1)). rewrite <- D in Hk.
      apply (W3 k i js); [assumption|]. unfold m'. rewrite setup_subs. assumption.
    + intros c Hc. rewrite <- C in Hc. destruct (W4 c Hc) as (fs & Hfs). exists fs. apply R. assumption.
  - intros s t Hs Ht Hn. unfold apply. unfold m'. rewrite setup_n_elems.
    f_equal. apply mapM_ext. intros i Hi. apply in_seqN in Hi. rewrite setup_run; [reflexivity|assumption|lia|lia].
  - intros s t i Hs Ht Hi. unfold apply1, m'. rewrite setup_run by (assumption || lia). reflexivity.
Qed.
Print Assumptions C06_topology_kept.

(** Non-vacuity: two prisms; face 1 is shared, the others get a boundary cell. *)
Example C06_topology_instance :
  wf_mesh twoPrisms /\ m_faces (setupBoundaryCells twoPrisms) <> m_faces twoPrisms /\
  apply (setupBoundaryCells twoPrisms) 3 2 = apply twoPrisms 3 2 /\
  exists l, apply twoPrisms 3 2 = Ok l /\ length l = 10.
Proof.
  split; [apply wf_meshb_sound; vm_compute; reflexivity|]. split.
  - intros H. apply (f_equal (fun l : list Face => match l with f :: _ => cellRight (bc (f_conn f)) | [] => 0%N end)) in H. vm_compute in H. discriminate.
  - split; [vm_compute; reflexivity|]. eexists. split; [vm_compute; reflexivity|reflexivity].
Qed.

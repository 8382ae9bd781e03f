From Verif Require Import P_Base M_Index P_Index M_Conn M_Mesh S_Boundary.

Lemma INVALID_64 : INVALID_INDEX 64 = INVALID.
Proof. reflexivity. Qed.

Lemma lor_bcode k : N.lor (N.of_nat k) (BOUNDARY_INDEX 64) = bcode k.
Proof. unfold bcode, makeBoundaryIndex. apply N.lor_comm. Qed.

Lemma bcode_valid k : (N.of_nat k < 2 ^ 63 - 1)%N -> bcode k <> INVALID.
Proof.
  intros H E. unfold bcode in E.
  assert (Hi : (N.of_nat k < 2 ^ (64 - 1))%N) by (simpl (64 - 1)%N; lia).
  pose proof (make_invalid_iff 64 (N.of_nat k) ltac:(lia) Hi) as G.
  unfold isInvalidIndex in G. rewrite INVALID_64, E, N.eqb_refl in G.
  destruct G as [G _]. specialize (G eq_refl). simpl (64 - 1)%N in G. lia.
Qed.

(** The records appended for the missing sides [l] when [n] boundary cells exist already. *)
Fixpoint records (n : nat) (l : list (nat * sideOf)) : list (N * N) :=
  match l with
  | [] => []
  | (i, _) :: r => (bcode n, N.of_nat i) :: records (S n) r
  end.

Lemma records_app n l l' : records n (l ++ l') = records n l ++ records (n + length l) l'.
Proof.
  revert n; induction l as [|[i s] l IH]; intros n; simpl; [rewrite Nat.add_0_r; reflexivity|].
  rewrite IH. f_equal. f_equal. f_equal. lia.
Qed.

Lemma records_nth n l k i s :
  nth_error l k = Some (i, s) -> nth_error (records n l) k = Some (bcode (n + k), N.of_nat i).
Proof.
  revert n k; induction l as [|[i' s'] l IH]; intros n [|k]; simpl; try discriminate.
  - intros H; inv H. rewrite Nat.add_0_r. reflexivity.
  - intros H. rewrite (IH (S n) k H). do 3 f_equal. lia.
Qed.

Lemma records_length n l : length (records n l) = length l.
Proof. revert n; induction l as [|[i s] l IH]; intros n; simpl; [reflexivity|]. rewrite IH; reflexivity. Qed.

(** New state of one face when [n] boundary cells exist. *)
Definition face_after (n : nat) (f : Face) : Face :=
  let l := N.eqb (cellOn f SLeft) INVALID in
  let r := N.eqb (cellOn f SRight) INVALID in
  mkFace (f_subs f)
    (mkBC (mkCC (if l then bcode n else cellOn f SLeft)
                (if r then bcode (n + (if l then 1 else 0)) else cellOn f SRight))
          (nextL (f_conn f)) (nextR (f_conn f))).

Definition miss1 (i : nat) (f : Face) : list (nat * sideOf) :=
  (if N.eqb (cellOn f SLeft) INVALID then [(i, SLeft)] else []) ++
  (if N.eqb (cellOn f SRight) INVALID then [(i, SRight)] else []).

Lemma missing_cons i f r : missing_from i (f :: r) = miss1 i f ++ missing_from (S i) r.
Proof. unfold miss1. simpl. rewrite <- app_assoc. reflexivity. Qed.

Lemma setupFace_spec bcs fi f :
  setupFace bcs (N.of_nat fi) f =
  (bcs ++ records (length bcs) (miss1 fi f), face_after (length bcs) f).
Proof.
  unfold setupFace, miss1, face_after, isInvalidIndex, appendBoundaryCell, setLeft, setRight.
  rewrite INVALID_64. unfold cellOn.
  destruct f as [es [[l r] nl nr]]. simpl.
  destruct (l =? INVALID)%N eqn:El; simpl.
  - destruct (r =? INVALID)%N eqn:Er; simpl; rewrite ?lor_bcode, ?app_length; simpl.
    + rewrite <- app_assoc. simpl. rewrite ?(Nat.add_comm _ 1). reflexivity.
    + reflexivity.
  - destruct (r =? INVALID)%N eqn:Er; simpl; rewrite ?lor_bcode, ?Nat.add_0_r, ?app_nil_r; reflexivity.
Qed.

Fixpoint faces_after (n : nat) (fi : nat) (fs : list Face) : list Face :=
  match fs with
  | [] => []
  | f :: r => face_after n f :: faces_after (n + length (miss1 fi f)) (S fi) r
  end.

Lemma setupLoop_spec fs : forall bcs fi,
  setupLoop bcs (N.of_nat fi) fs =
  (bcs ++ records (length bcs) (missing_from fi fs), faces_after (length bcs) fi fs).
Proof.
  induction fs as [|f r IH]; intros bcs fi.
  - simpl. rewrite app_nil_r. reflexivity.
  - cbn [setupLoop]. rewrite setupFace_spec.
    replace (N.of_nat fi + 1)%N with (N.of_nat (S fi)) by lia.
    rewrite IH, app_length, records_length, missing_cons, records_app, app_assoc. reflexivity.
Qed.

Lemma faces_after_length n fi fs : length (faces_after n fi fs) = length fs.
Proof. revert n fi; induction fs as [|f r IH]; intros; simpl; [reflexivity|]. rewrite IH; reflexivity. Qed.

Lemma faces_after_nth n fi fs i f :
  nth_error fs i = Some f ->
  exists k, nth_error (faces_after n fi fs) i = Some (face_after k f) /\
            n <= k /\ k + length (miss1 0 f) <= n + length (missing_from fi fs) /\
            k = n + length (missing_from fi (firstn i fs)).
Proof.
  revert n fi i; induction fs as [|f' r IH]; intros n fi [|i]; try discriminate; intros H.
  - inv H. exists n. rewrite missing_cons, app_length. cbn [faces_after nth_error].
    assert (length (miss1 0 f) = length (miss1 fi f)).
    { unfold miss1. rewrite !app_length. do 2 destruct (_ =? _)%N; reflexivity. }
    simpl firstn. simpl missing_from. simpl length. repeat split; lia.
  - cbn [nth_error] in H. destruct (IH (n + length (miss1 fi f')) (S fi) i H) as (k & H1 & H2 & H3 & H4).
    exists k. cbn [faces_after nth_error firstn]. rewrite !missing_cons, !app_length. repeat split; try lia.
    assumption.
Qed.

Lemma missing_from_in fs : forall fi i s,
  In (i, s) (missing_from fi fs) <->
  fi <= i /\ exists f, nth_error fs (i - fi) = Some f /\ cellOn f s = INVALID.
Proof.
  induction fs as [|f r IH]; intros fi i s.
  - simpl. split; [tauto|]. intros (_ & f & H & _). destruct (i - fi); discriminate.
  - rewrite missing_cons, in_app_iff, IH. split.
    + intros [H|(Hle & f' & H & E)].
      * unfold miss1 in H. rewrite in_app_iff in H.
        assert (G : i = fi /\ cellOn f s = INVALID).
        { destruct H as [H|H]; [destruct (N.eqb_spec (cellOn f SLeft) INVALID)|destruct (N.eqb_spec (cellOn f SRight) INVALID)];
            try contradiction; destruct H as [H|[]]; inv H; auto. }
        destruct G as [-> G]. split; [lia|]. exists f. rewrite Nat.sub_diag. auto.
      * split; [lia|]. exists f'. replace (i - fi) with (S (i - S fi)) by lia. auto.
    + intros (Hle & f' & H & E). destruct (Nat.eq_dec i fi) as [->|Hn].
      * rewrite Nat.sub_diag in H. simpl in H. inv H. left. unfold miss1. rewrite in_app_iff.
        destruct s; rewrite E, N.eqb_refl; simpl; auto.
      * right. split; [lia|]. exists f'. replace (i - fi) with (S (i - S fi)) in H by lia. auto.
Qed.

Lemma missing_from_NoDup fs : forall fi, NoDup (missing_from fi fs).
Proof.
  induction fs as [|f r IH]; intros fi; [constructor|].
  rewrite missing_cons. apply NoDup_app_iff. split; [|split; [apply IH|]].
  - unfold miss1. destruct (_ =? _)%N, (_ =? _)%N; simpl; repeat constructor; simpl; try tauto.
    intros [H|[]]; discriminate.
  - intros [i s] H1 H2. apply missing_from_in in H2 as (H2 & _).
    unfold miss1 in H1. rewrite in_app_iff in H1.
    destruct H1 as [H|H]; destruct (_ =? _)%N; try contradiction; destruct H as [H|[]]; inv H; lia.
Qed.

Lemma missing_side_code fs : forall n fi k i s,
  nth_error (missing_from fi fs) k = Some (i, s) ->
  fi <= i /\ exists f', nth_error (faces_after n fi fs) (i - fi) = Some f' /\ cellOn f' s = bcode (n + k).
Proof.
  induction fs as [|f r IH]; intros n fi k i s H.
  - destruct k; discriminate.
  - rewrite missing_cons in H. cbn [faces_after].
    destruct (Nat.lt_ge_cases k (length (miss1 fi f))) as [Hk|Hk].
    + rewrite nth_error_app1 in H by assumption.
      assert (G : i = fi /\ cellOn (face_after n f) s = bcode (n + k)).
      { unfold miss1 in H. unfold face_after.
        destruct (N.eqb_spec (cellOn f SLeft) INVALID) as [E1|E1];
        destruct (N.eqb_spec (cellOn f SRight) INVALID) as [E2|E2];
        destruct k as [|[|k]]; simpl in H; try discriminate; inv H; simpl;
          rewrite ?Nat.add_0_r; auto; destruct k; discriminate. }
      destruct G as [-> G]. split; [lia|]. rewrite Nat.sub_diag. eexists; split; [reflexivity|exact G].
    + rewrite nth_error_app2 in H by assumption.
      destruct (IH (n + length (miss1 fi f)) (S fi) _ _ _ H) as (Hle & f' & H1 & H2).
      split; [lia|]. exists f'. replace (i - fi) with (S (i - S fi)) by lia. split; [assumption|].
      rewrite H2. f_equal. lia.
Qed.

Lemma face_after_valid f n :
  (N.of_nat (n + length (miss1 0 f)) < 2 ^ 63 - 1)%N ->
  forall s, cellOn (face_after n f) s <> INVALID.
Proof.
  intros H s. unfold face_after, miss1 in *. rewrite app_length in H.
  destruct (N.eqb_spec (cellOn f SLeft) INVALID) as [E1|E1];
  destruct (N.eqb_spec (cellOn f SRight) INVALID) as [E2|E2]; destruct s; simpl in *;
    try assumption; apply bcode_valid; lia.
Qed.

Lemma missing_length fs : forall fi, length (missing_from fi fs) <= 2 * length fs.
Proof.
  induction fs as [|f r IH]; intros fi; [simpl; lia|].
  rewrite missing_cons, app_length. specialize (IH (S fi)).
  assert (length (miss1 fi f) <= 2)
    by (unfold miss1; rewrite app_length; do 2 destruct (_ =? _)%N; simpl; lia).
  cbn [length]. lia.
Qed.

Lemma faces_after_none fs : forall n fi,
  missing_from fi fs = [] -> faces_after n fi fs = fs.
Proof.
  induction fs as [|f r IH]; intros n fi H; [reflexivity|].
  rewrite missing_cons in H. apply app_eq_nil in H as [H1 H2].
  cbn [faces_after]. rewrite IH by assumption. f_equal.
  unfold miss1 in H1. unfold face_after.
  destruct (N.eqb_spec (cellOn f SLeft) INVALID); [discriminate|].
  destruct (N.eqb_spec (cellOn f SRight) INVALID); [discriminate|].
  destruct f as [es [[l q] nl nr]]. reflexivity.
Qed.

Lemma face_after_keep n f s : cellOn f s <> INVALID -> cellOn (face_after n f) s = cellOn f s.
Proof.
  intros H. unfold face_after.
  destruct (N.eqb_spec (cellOn f SLeft) INVALID) as [E1|E1];
  destruct (N.eqb_spec (cellOn f SRight) INVALID) as [E2|E2]; destruct s; try contradiction; reflexivity.
Qed.
